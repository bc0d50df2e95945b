(** Facts about kinds and token sets. *)
From Verif Require Import Base BaseProofs Kinds TokenSet Lexer Parser.
Local Open Scope N_scope.

Lemma kind_from_to k : kind_from_n (kind_to_n k) = Ok k.
Proof. destruct k; reflexivity. Qed.

Lemma kind_to_n_inj a b : kind_to_n a = kind_to_n b -> a = b.
Proof.
  intros H. assert (E : Ok a = Ok b) by (rewrite <- !kind_from_to, H; reflexivity).
  congruence.
Qed.

Lemma kind_eqb_eq a b : kind_eqb a b = true <-> a = b.
Proof.
  unfold kind_eqb. split; [|intros ->; apply N.eqb_refl].
  intros H. apply kind_to_n_inj. lia.
Qed.
Lemma kind_eqb_refl a : kind_eqb a a = true.
Proof. apply kind_eqb_eq; reflexivity. Qed.
Lemma kind_eqb_neq a b : kind_eqb a b = false <-> a <> b.
Proof.
  destruct (kind_eqb a b) eqn:E; split; intros H; try discriminate; try congruence.
  - apply kind_eqb_eq in E. congruence.
  - intros ->. rewrite kind_eqb_refl in E. discriminate.
Qed.

Lemma kind_to_n_lt k : kind_to_n k < 117.
Proof. destruct k; reflexivity. Qed.

Lemma kind_to_from d k : kind_from_n d = Ok k -> kind_to_n k = d.
Proof.
  unfold kind_from_n. destruct (d <=? kind_to_n K_LAST) eqn:E; [|discriminate].
  assert (Hd : d < 117) by (cbn in E; lia). clear E.
  destruct (nth_error all_kinds (N.to_nat d)) eqn:E; [|discriminate].
  cbn [index]. intros H; injection H as ->.
  assert (A : forall n, (n < 117)%nat ->
             match nth_error all_kinds n with Some k => kind_to_n k = N.of_nat n | None => False end).
  { intros n Hn. do 117 (destruct n as [|n]; [reflexivity|]). lia. }
  specialize (A (N.to_nat d)). rewrite E in A. rewrite A by lia. lia.
Qed.

Lemma kind_from_total d : d <= 116 -> exists k, kind_from_n d = Ok k.
Proof.
  intros Hd. unfold kind_from_n.
  destruct (d <=? kind_to_n K_LAST) eqn:E; [|cbn in E; lia].
  destruct (nth_error all_kinds (N.to_nat d)) eqn:E2; [eexists; reflexivity|].
  apply nth_error_None in E2. cbn [length all_kinds] in E2. lia.
Qed.

Lemma kind_in_In k l : kind_in k l = true <-> In k l.
Proof.
  unfold kind_in. rewrite existsb_exists. split.
  - intros (x & Hx & E). apply kind_eqb_eq in E as ->. exact Hx.
  - intros H. exists k. split; [exact H|apply kind_eqb_refl].
Qed.

(** ** Token sets *)
Lemma ts_mask_ok k : ts_mask k = Ok (N.shiftl 1 (kind_to_n k)).
Proof. unfold ts_mask. pose proof (kind_to_n_lt k). destruct (_ <? _) eqn:E; [reflexivity|lia]. Qed.

Lemma testbit_shift a i : N.testbit (N.shiftl 1 a) i = (a =? i).
Proof.
  destruct (N.le_gt_cases a i).
  - rewrite N.shiftl_spec_high' by lia.
    destruct (a =? i) eqn:E.
    + replace (i - a) with 0 by lia. reflexivity.
    + assert (1 <= i - a) by lia. rewrite N.bits_above_log2; [reflexivity|]. cbn. lia.
  - rewrite N.shiftl_spec_low by lia. lia.
Qed.

Lemma ts_new_from_ok acc ks :
  exists s, ts_new_from acc ks = Ok s /\
    forall i, N.testbit s i = N.testbit acc i || existsb (fun k => kind_to_n k =? i) ks.
Proof.
  revert acc; induction ks as [|k ks IH]; intros acc; cbn [ts_new_from].
  - exists acc. split; [reflexivity|]. intros i. cbn. now rewrite orb_false_r.
  - rewrite ts_mask_ok. cbn [bind].
    destruct (IH (N.lor acc (N.shiftl 1 (kind_to_n k)))) as (s & -> & Hs).
    exists s. split; [reflexivity|]. intros i. rewrite Hs, N.lor_spec, testbit_shift.
    cbn [existsb]. rewrite orb_assoc. reflexivity.
Qed.

Lemma land_mask_0 s a : (N.land s (N.shiftl 1 a) =? 0) = negb (N.testbit s a).
Proof.
  destruct (N.testbit s a) eqn:E; cbn [negb].
  - apply N.eqb_neq. intros H.
    assert (T : N.testbit (N.land s (N.shiftl 1 a)) a = true).
    { rewrite N.land_spec, testbit_shift, E, N.eqb_refl. reflexivity. }
    rewrite H, N.bits_0 in T. discriminate.
  - apply N.eqb_eq. apply N.bits_inj. intros i. rewrite N.land_spec, testbit_shift, N.bits_0.
    destruct (a =? i) eqn:E2; [|apply andb_false_r]. apply N.eqb_eq in E2. subst i.
    rewrite E. reflexivity.
Qed.

Lemma ts_contains_ok s k : ts_contains s k = Ok (N.testbit s (kind_to_n k)).
Proof.
  unfold ts_contains. rewrite ts_mask_ok. cbn [bind]. rewrite land_mask_0, negb_involutive.
  reflexivity.
Qed.

Lemma ts_new_ok ks : exists s, ts_new ks = Ok s /\ forall k, ts_contains s k = Ok (kind_in k ks).
Proof.
  destruct (ts_new_from_ok 0 ks) as (s & E & Hs). exists s. split; [exact E|].
  intros k. rewrite ts_contains_ok, Hs, N.bits_0. cbn [orb]. f_equal.
  unfold kind_in. induction ks as [|x ks IH]; [reflexivity|].
  cbn [existsb]. f_equal; [unfold kind_eqb; apply N.eqb_sym|].
  clear -ks. induction ks as [|y ks IH]; [reflexivity|]. cbn [existsb].
  rewrite IH. f_equal. unfold kind_eqb; apply N.eqb_sym.
Qed.

Lemma ts_has_spec ts k : ts_has ts k = kind_in k ts.
Proof.
  unfold ts_has. destruct (ts_new_ok ts) as (s & -> & H). rewrite H. reflexivity.
Qed.

Lemma ts_new_bound ks s : ts_new ks = Ok s -> s < u128_bound.
Proof.
  unfold ts_new.
  assert (G : forall ks acc, acc < u128_bound -> ts_new_from acc ks = Ok s -> s < u128_bound).
  { clear ks. induction ks as [|k ks IH]; intros acc Ha H.
    - injection H as <-. exact Ha.
    - cbn [ts_new_from] in H. rewrite ts_mask_ok in H. cbn [bind] in H. apply IH in H; [exact H|].
      change u128_bound with (2 ^ 128) in *. pose proof (kind_to_n_lt k) as Hk.
      assert (Hm : N.shiftl 1 (kind_to_n k) < 2 ^ 128).
      { rewrite N.shiftl_1_l. apply N.pow_lt_mono_r; lia. }
      revert Ha Hm. generalize (N.shiftl 1 (kind_to_n k)) as m. intros m Ha Hm.
      destruct (N.eq_dec (N.lor acc m) 0) as [->|Hz]; [reflexivity|].
      apply N.log2_lt_pow2; [lia|]. rewrite N.log2_lor. apply N.max_lub_lt.
      + destruct (N.eq_dec acc 0) as [->|Hz']; [cbn; lia|]. apply N.log2_lt_pow2; lia.
      + destruct (N.eq_dec m 0) as [->|Hz']; [cbn; lia|]. apply N.log2_lt_pow2; lia. }
  apply G. reflexivity.
Qed.
