(** Proofs about the version. *)
From Coq Require Import String.
From Verif Require Import Base Utf8 Lexer Tags Version VersionSpec.
Local Open Scope N_scope.

Lemma text_eqb_refl t : text_eqb t t = true.
Proof. induction t as [|c t IH]; [reflexivity|]. cbn [text_eqb]. rewrite N.eqb_refl. exact IH. Qed.
Lemma text_eqb_true a : forall b, text_eqb a b = true -> a = b.
Proof. induction a as [|x a IH]; intros [|y b] H; try discriminate; [reflexivity|]. cbn [text_eqb] in H. apply andb_true_iff in H as [E H]. f_equal; [lia|auto]. Qed.
Lemma texts_eqb_refl l : texts_eqb l l = true.
Proof. induction l as [|c t IH]; [reflexivity|]. cbn [texts_eqb]. rewrite text_eqb_refl. exact IH. Qed.
Lemma texts_eqb_true a : forall b, texts_eqb a b = true -> a = b.
Proof. induction a as [|x a IH]; intros [|y b] H; try discriminate; [reflexivity|]. cbn [texts_eqb] in H. apply andb_true_iff in H as [E H]. f_equal; [apply text_eqb_true; exact E|auto]. Qed.

(** *** Programs *)
Lemma plain_decode t : Forall (fun c => 33 <= c /\ c <= 126) t -> decode (encode (t ++ [10])) = Some (t ++ [10]).
Proof.
  induction t as [|c t IH]; intros F; [reflexivity|]. inversion F as [|? ? [A B] F']; subst. unfold encode in *. cbn [app flat_map]. unfold enc_char at 1.
  destruct (c <? 0x80) eqn:E; [|lia]. cbn [app decode]. rewrite E, IH by exact F'. reflexivity.
Qed.
Lemma visible c : 33 <= c /\ c <= 126 -> is_white_space c = false.
Proof. intros H. unfold is_white_space, in_range. repeat (apply orb_false_iff; split); try lia. Qed.
Lemma trim_start_visible t : Forall (fun c => 33 <= c /\ c <= 126) t -> trim_start t = t.
Proof. intros F. destruct F as [|c t H F]; [reflexivity|]. cbn [trim_start]. rewrite (visible c H). reflexivity. Qed.
Lemma plain_trim t : plain t -> trim (t ++ [10]) = t.
Proof.
  intros [N F]. unfold trim, trim_end. assert (E : trim_start (t ++ [10]) = t ++ [10]).
  { destruct F as [|c r H F]; [congruence|]. cbn [app trim_start]. rewrite (visible c H). reflexivity. }
  rewrite E, rev_app_distr. cbn [rev app trim_start]. change (is_white_space 10) with true. cbn iota.
  rewrite trim_start_visible by (apply Forall_rev; exact F). apply rev_involutive.
Qed.
Lemma hash_of s : (forall c, current s = Some c -> plain c) -> commit_hash (programs s) = current s.
Proof.
  intros H. unfold commit_hash, exec. change (words (`"git rev-parse --short HEAD")) with [`"git"; `"rev-parse"; `"--short"; `"HEAD"].
  unfold programs. rewrite texts_eqb_refl. destruct (current s) as [c|]; [|reflexivity]. specialize (H c eq_refl).
  rewrite plain_decode by apply H. cbn [option_map]. rewrite plain_trim by exact H. reflexivity.
Qed.
Lemma date_of s : plain (s_date s) -> build_date (programs s) = Some (s_date s).
Proof.
  intros H. unfold build_date, exec. change (words (`"date -u +%Y-%m-%d")) with [`"date"; `"-u"; `"+%Y-%m-%d"].
  unfold programs. rewrite texts_eqb_refl. change (texts_eqb [`"date"; `"-u"; `"+%Y-%m-%d"] [`"git"; `"rev-parse"; `"--short"; `"HEAD"]) with false. cbn iota.
  rewrite plain_decode by apply H. cbn [option_map]. rewrite plain_trim by exact H. reflexivity.
Qed.

(** *** Good states *)
Definition good (s : state) : Prop :=
  plain (s_date s) /\ Forall (fun p => plain (snd p)) (s_tips s) /\ match s_head s with Detached c => plain c | Branch _ => True end.
Lemma good_current s c : good s -> current s = Some c -> plain c.
Proof.
  intros (_ & T & H). unfold current. destruct (s_head s) as [b|c']; [|congruence]. clear H. induction T as [|[k x] l P T IH]; [discriminate|].
  cbn [lookup]. destruct (text_eqb b k); [|exact IH]. intros E. injection E as <-. exact P.
Qed.
Lemma good_step m t s e : good s -> good_event e -> good (step m t s e).
Proof.
  intros (D & T & H) E. destruct e; cbn [step good_event] in *; unfold good; cbn; auto.
  destruct (s_head s) eqn:Hh; cbn; rewrite ?Hh; auto.
Qed.
Lemma good_run m t es : forall s, good s -> Forall good_event es -> good (run m t s es).
Proof. induction es as [|e es IH]; intros s G F; [exact G|]. inversion F; subst. cbn [run fold_left]. apply IH; [apply good_step|]; auto. Qed.
Lemma run_app m t s a b : run m t s (a ++ b) = run m t (run m t s a) b.
Proof. apply fold_left_app. Qed.

Lemma right_revision s : good s -> right_now s (revision (variable s) (programs s)).
Proof.
  intros G. unfold right_now, right, revision. fold REV_VAR CHANNEL_VAR. destruct (variable s REV_VAR) as [x|]; [reflexivity|].
  rewrite hash_of by (intros c; apply good_current; exact G). rewrite date_of by apply G. destruct (current s) as [c|]; [|reflexivity].
  rewrite <- !app_assoc. reflexivity.
Qed.

(** *** The file that is watched *)
Lemma head_ref_spec ex d : match head_ref ex d with
  | Some p => p <> [] /\ ex p = true /\ exists sub, d = sub ++ p /\ forall a b, sub = a ++ b -> b <> [] -> ex (b ++ p) = false
  | None => forall a p, d = a ++ p -> p <> [] -> ex p = false
  end.
Proof.
  induction d as [|n d IH]; cbn [head_ref].
  - intros a p E N. apply eq_sym, app_eq_nil in E as [_ E]. congruence.
  - destruct (ex (n :: d)) eqn:X.
    + split; [discriminate|]. split; [exact X|]. exists []. split; [reflexivity|]. intros a b E N. apply eq_sym, app_eq_nil in E as [_ E]. congruence.
    + destruct (head_ref ex d) as [p|].
      * destruct IH as (N & E & sub & -> & F). split; [exact N|]. split; [exact E|]. exists (n :: sub). split; [reflexivity|].
        intros a b E' N'. destruct a as [|y a]; [cbn [app] in E'; subst b; exact X|]. injection E' as -> E'. apply (F a b); auto.
      * intros a p E N. destruct a as [|y a]; [cbn [app] in E; subst p; exact X|]. injection E as -> E. apply (IH a p); auto.
Qed.
Lemma head_ref_top m t (n : nat) : inside m t -> head_ref (fun d => match (if texts_eqb d t then Some n else None) with Some _ => true | None => false end) m = Some t.
Proof.
  intros (N & sub & ->). induction sub as [|x sub IH]; cbn [app].
  - destruct t as [|y t]; [congruence|]. cbn [head_ref]. rewrite texts_eqb_refl. reflexivity.
  - cbn [head_ref]. destruct (texts_eqb (x :: sub ++ t) t) eqn:E; [|exact IH]. apply texts_eqb_true in E. apply (f_equal (@length _)) in E. cbn [length] in E. rewrite app_length in E. lia.
Qed.
Lemma script_eq m t s : inside m t -> script m (world_of t s) = [RerunIfEnvChanged REV_VAR; RerunIfHeadChanged t; RustcEnv (`"REV") (revision (variable s) (programs s))].
Proof. intros I. unfold script, set_rerun. cbn [w_heads world_of w_env w_run]. rewrite (head_ref_top m t (s_writes s) I). reflexivity. Qed.
Lemma changed_iff m t s s' : inside m t ->
  existsb (changed (world_of t s) (world_of t s')) (script m (world_of t s)) = false <-> variable s REV_VAR = variable s' REV_VAR /\ s_writes s = s_writes s'.
Proof.
  intros I. rewrite (script_eq m t s I). cbn [existsb changed w_env w_heads world_of]. rewrite texts_eqb_refl. cbn [opt_eqb]. rewrite !orb_false_r, orb_false_iff, !negb_false_iff, Nat.eqb_eq.
  assert (V : opt_eqb text_eqb (variable s REV_VAR) (variable s' REV_VAR) = true <-> variable s REV_VAR = variable s' REV_VAR).
  { destruct (variable s REV_VAR), (variable s' REV_VAR); cbn [opt_eqb]; split; intros H; try discriminate; auto; [f_equal; apply text_eqb_true; exact H|injection H as ->; apply text_eqb_refl]. }
  rewrite V. reflexivity.
Qed.

(** *** Histories: what is kept comes from the last run of the script *)
Definition from_run m t s0 es k es1 es2 : Prop :=
  es = es1 ++ Build :: es2 /\ k = Kept (world_of t (run m t s0 es1)) (script m (world_of t (run m t s0 es1))) /\
  forall a b, es2 = a ++ Build :: b ->
    variable (run m t s0 es1) REV_VAR = variable (run m t s0 (es1 ++ Build :: a)) REV_VAR /\ s_writes (run m t s0 es1) = s_writes (run m t s0 (es1 ++ Build :: a)).
Lemma kept_from m t s0 es k : inside m t -> s_kept s0 = None -> s_kept (run m t s0 es) = Some k -> exists es1 es2, from_run m t s0 es k es1 es2.
Proof.
  intros I K0. revert k. induction es as [|e es IH] using rev_ind; intros k K; [cbn in K; congruence|].
  rewrite run_app in K. cbn [run fold_left] in K. fold (run m t s0 es) in K.
  assert (Same : e <> Build -> s_kept (run m t s0 es) = Some k).
  { intros N. destruct e; cbn [step] in K; try exact K; [|congruence]. destruct (s_head _); exact K. }
  destruct e as [c|b|c|v x|d|].
  6:{ cbn [step s_kept] in K. injection K as K. destruct (s_kept (run m t s0 es)) as [k'|] eqn:E.
      - destruct (IH k' eq_refl) as (es1 & es2 & E1 & -> & H). cbn [build k_world k_out] in K.
        destruct (existsb _ _) eqn:X.
        + exists es, []. split; [reflexivity|]. split; [symmetry; exact K|]. intros a b Eb. destruct a; discriminate.
        + exists es1, (es2 ++ [Build]). split; [rewrite E1, <- app_assoc; reflexivity|]. split; [symmetry; exact K|].
          apply (changed_iff m t _ _ I) in X. intros a b Eb. induction b as [|y b _] using rev_ind.
          * apply app_inj_tail in Eb as [-> _]. rewrite <- E1. exact X.
          * rewrite app_comm_cons, app_assoc in Eb. apply app_inj_tail in Eb as [Eb _]. apply (H a b Eb).
      - exists es, []. split; [reflexivity|]. split; [symmetry; exact K|]. intros a b Eb. destruct a; discriminate. }
  all: destruct (IH k (Same ltac:(discriminate))) as (es1 & es2 & E1 & E2 & H); eexists es1, (es2 ++ [_]); (split; [rewrite E1, <- app_assoc; reflexivity|]); (split; [exact E2|]);
    intros aa bb Eb; induction bb as [|yy bb _] using rev_ind; [apply app_inj_tail in Eb as [_ Eb]; discriminate|]; rewrite app_comm_cons, app_assoc in Eb; apply app_inj_tail in Eb as [Eb _]; apply (H aa bb Eb).
Qed.

(** *** HEAD is not written as long as nothing moves but branches *)
Lemma step_writes m t s e : (s_writes s <= s_writes (step m t s e))%nat.
Proof. destruct e; cbn; try lia. destruct (s_head s); cbn; lia. Qed.
Lemma run_writes m t es : forall s, (s_writes s <= s_writes (run m t s es))%nat.
Proof. induction es as [|e es IH]; intros s; [reflexivity|]. cbn [run fold_left]. fold (run m t (step m t s e) es). pose proof (IH (step m t s e)). pose proof (step_writes m t s e). lia. Qed.
Definition careful m t s es : Prop := forall a c b, es = a ++ Commit c :: b -> exists c', s_head (run m t s a) = Detached c'.
Lemma careful_current m t es : forall s, careful m t s es -> s_writes (run m t s es) = s_writes s -> current (run m t s es) = current s.
Proof.
  induction es as [|e es IH]; intros s C W; [reflexivity|]. cbn [run fold_left] in *. fold (run m t (step m t s e) es) in *.
  pose proof (run_writes m t es (step m t s e)) as M. pose proof (step_writes m t s e) as M'.
  rewrite IH.
  - destruct e; cbn [step] in *; try reflexivity; cbn in M; try lia. destruct (C [] c es eq_refl) as [c' Hc]. cbn [run fold_left] in Hc. rewrite Hc in M, W. cbn [s_writes] in M. lia.
  - intros a c b ->. apply (C (e :: a) c b). reflexivity.
  - lia.
Qed.
