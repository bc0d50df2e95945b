(** Lemmas about Base.v *)
From Verif Require Import Base.

Lemma bind_ok {A B} (m : res A) (f : A -> res B) b :
  bind m f = Ok b -> exists a, m = Ok a /\ f a = Ok b.
Proof. destruct m; cbn; intros H; try discriminate; eauto. Qed.

Lemma utf8_len_pos c : (1 <= utf8_len c)%N.
Proof. unfold utf8_len. repeat destruct (_ <? _)%N; lia. Qed.
Lemma utf8_len_le4 c : (utf8_len c <= 4)%N.
Proof. unfold utf8_len. repeat destruct (_ <? _)%N; lia. Qed.
Lemma utf16_len_pos c : (1 <= utf16_len c)%N.
Proof. unfold utf16_len. destruct (_ <? _)%N; lia. Qed.
Lemma utf16_le_utf8 c : (utf16_len c <= utf8_len c)%N.
Proof.
  unfold utf16_len, utf8_len.
  destruct (c <? 0x10000)%N eqn:A, (c <? 0x800)%N eqn:B, (c <? 0x80)%N eqn:C; lia.
Qed.

Lemma tlen_app a b : tlen (a ++ b) = (tlen a + tlen b)%N.
Proof. induction a as [|c a IH]; cbn [tlen app]; [lia|]. rewrite IH; lia. Qed.
Lemma tlen16_app a b : tlen16 (a ++ b) = (tlen16 a + tlen16 b)%N.
Proof. induction a as [|c a IH]; cbn [tlen16 app]; [lia|]. rewrite IH; lia. Qed.
Lemma tlen_0 t : tlen t = 0%N -> t = [].
Proof. destruct t as [|c t]; cbn [tlen]; [auto|]. pose proof (utf8_len_pos c); lia. Qed.
Lemma tlen_ge_length t : (N.of_nat (length t) <= tlen t)%N.
Proof. induction t as [|c t IH]; cbn [tlen length]; [lia|]. pose proof (utf8_len_pos c); lia. Qed.

Lemma split_at_0 t : split_at t 0 = Some ([], t).
Proof. destruct t; reflexivity. Qed.

Lemma split_at_app a b : split_at (a ++ b) (tlen a) = Some (a, b).
Proof.
  induction a as [|c a IH]; cbn [tlen app].
  - apply split_at_0.
  - cbn [split_at]. pose proof (utf8_len_pos c).
    destruct (_ =? 0)%N eqn:E; [lia|].
    destruct (_ <? _)%N eqn:E2; [lia|].
    replace (utf8_len c + tlen a - utf8_len c)%N with (tlen a) by lia.
    rewrite IH; reflexivity.
Qed.

Lemma split_at_spec t n a b : split_at t n = Some (a, b) -> t = a ++ b /\ tlen a = n.
Proof.
  revert n a b; induction t as [|c t IH]; intros n a b; cbn [split_at];
    destruct (n =? 0)%N eqn:E0; intros H.
  - injection H as <- <-; split; [reflexivity|cbn; lia].
  - discriminate.
  - injection H as <- <-; split; [reflexivity|cbn; lia].
  - destruct (n <? utf8_len c)%N eqn:E1; [discriminate|].
    destruct (split_at t (n - utf8_len c)) as [[a' b']|] eqn:E2; [|discriminate].
    injection H as <- <-. apply IH in E2 as [-> Hl]. split; [reflexivity|].
    cbn [tlen]; lia.
Qed.

Lemma split_at_iff t n a b : split_at t n = Some (a, b) <-> t = a ++ b /\ tlen a = n.
Proof.
  split; [apply split_at_spec|]. intros [-> <-]. apply split_at_app.
Qed.

Lemma tlen_prefix_inj a b a' b' :
  a ++ b = a' ++ b' -> tlen a = tlen a' -> a = a' /\ b = b'.
Proof.
  intros H Hl. pose proof (split_at_app a b) as H1. pose proof (split_at_app a' b') as H2.
  rewrite H, Hl in H1. rewrite H1 in H2. injection H2; auto.
Qed.

Lemma text_eqb_eq a b : text_eqb a b = true <-> a = b.
Proof.
  revert b; induction a as [|x a IH]; intros [|y b]; cbn [text_eqb]; split; intros H;
    try discriminate; auto.
  - apply andb_prop in H as [H1 H2]. apply IH in H2. f_equal; [lia|auto].
  - injection H as -> ->. rewrite (proj2 (IH b) eq_refl). rewrite N.eqb_refl; reflexivity.
Qed.
Lemma text_eqb_refl a : text_eqb a a = true.
Proof. apply text_eqb_eq; reflexivity. Qed.
Lemma text_eqb_neq a b : text_eqb a b = false <-> a <> b.
Proof.
  split; intros H.
  - intros ->. rewrite text_eqb_refl in H; discriminate.
  - destruct (text_eqb a b) eqn:E; [|reflexivity]. apply text_eqb_eq in E; contradiction.
Qed.

Lemma starts_with_spec t p : starts_with t p = true <-> exists r, t = p ++ r.
Proof.
  revert t; induction p as [|y p IH]; intros t.
  - destruct t; cbn; split; eauto.
  - destruct t as [|x t]; cbn [starts_with]; split; intros H.
    + discriminate.
    + destruct H as [r H]; discriminate.
    + apply andb_prop in H as [H1 H2]. apply IH in H2 as [r ->].
      exists r. cbn; f_equal; lia.
    + destruct H as [r H]. cbn in H. injection H as -> ->.
      rewrite N.eqb_refl. apply IH. eauto.
Qed.

Section AmapProofs.
  Context {K V : Type} (eqb : K -> K -> bool).
  Hypothesis eqb_spec : forall a b, eqb a b = true <-> a = b.

  Lemma eqb_refl_ a : eqb a a = true.
  Proof. apply eqb_spec; reflexivity. Qed.
  Lemma eqb_neq_ a b : a <> b -> eqb a b = false.
  Proof. intros H; destruct (eqb a b) eqn:E; auto. apply eqb_spec in E; contradiction. Qed.

  Lemma alookup_insert k v (m : @amap K V) : alookup eqb k (ainsert eqb k v m) = Some v.
  Proof.
    induction m as [|[k' v'] m IH]; cbn.
    - rewrite eqb_refl_; reflexivity.
    - destruct (eqb k' k) eqn:E; cbn; rewrite E; auto.
  Qed.
  Lemma alookup_insert_ne k k' v (m : @amap K V) :
    k <> k' -> alookup eqb k' (ainsert eqb k v m) = alookup eqb k' m.
  Proof.
    intros Hne. induction m as [|[j w] m IH]; cbn.
    - rewrite eqb_neq_; auto.
    - destruct (eqb j k) eqn:E; cbn.
      + apply eqb_spec in E as ->. rewrite eqb_neq_; auto.
      + destruct (eqb j k'); auto.
  Qed.
  Lemma alookup_remove k (m : @amap K V) : alookup eqb k (aremove eqb k m) = None.
  Proof.
    induction m as [|[k' v'] m IH]; cbn; auto.
    destruct (eqb k' k) eqn:E; auto. cbn. rewrite E; auto.
  Qed.
  Lemma alookup_remove_ne k k' (m : @amap K V) :
    k <> k' -> alookup eqb k' (aremove eqb k m) = alookup eqb k' m.
  Proof.
    intros Hne. induction m as [|[j w] m IH]; cbn; auto.
    destruct (eqb j k) eqn:E; cbn.
    - apply eqb_spec in E as ->. rewrite (eqb_neq_ k k'); auto.
    - rewrite IH; reflexivity.
  Qed.
  Lemma alookup_In k v (m : @amap K V) : alookup eqb k m = Some v -> In (k, v) m.
  Proof.
    induction m as [|[j w] m IH]; cbn; intros H; [discriminate|].
    destruct (eqb j k) eqn:E.
    - apply eqb_spec in E as ->. injection H as ->. auto.
    - auto.
  Qed.
  Lemma alookup_None k (m : @amap K V) : alookup eqb k m = None <-> ~ In k (map fst m).
  Proof.
    induction m as [|[j w] m IH]; cbn; [tauto|].
    destruct (eqb j k) eqn:E.
    - apply eqb_spec in E as ->. split; [discriminate|tauto].
    - rewrite IH. split; [|tauto]. intros H [->|H2]; [|tauto].
      rewrite eqb_refl_ in E; discriminate.
  Qed.
  Lemma In_alookup k v (m : @amap K V) :
    NoDup (map fst m) -> In (k, v) m -> alookup eqb k m = Some v.
  Proof.
    induction m as [|[j w] m IH]; cbn; intros Hnd Hin; [contradiction|].
    inversion Hnd as [|? ? Hn Hnd']; subst.
    destruct Hin as [H|Hin].
    - injection H as -> ->. rewrite eqb_refl_; reflexivity.
    - destruct (eqb j k) eqn:E; auto.
      apply eqb_spec in E as ->. exfalso; apply Hn. apply in_map_iff. exists (k, v); auto.
  Qed.
  Lemma ainsert_keys k v (m : @amap K V) x :
    In x (map fst (ainsert eqb k v m)) <-> x = k \/ In x (map fst m).
  Proof.
    induction m as [|[j w] m IH]; cbn; [intuition congruence|].
    destruct (eqb j k) eqn:E; cbn.
    - apply eqb_spec in E as ->. intuition congruence.
    - rewrite IH. intuition congruence.
  Qed.
  Lemma ainsert_NoDup k v (m : @amap K V) :
    NoDup (map fst m) -> NoDup (map fst (ainsert eqb k v m)).
  Proof.
    induction m as [|[j w] m IH]; cbn; intros H.
    - constructor; [auto|constructor].
    - inversion H as [|? ? Hn Hnd]; subst. destruct (eqb j k) eqn:E; cbn.
      + constructor; auto.
      + constructor; auto. rewrite ainsert_keys. intros [->|H2]; [|auto].
        rewrite eqb_refl_ in E; discriminate.
  Qed.
  Lemma aremove_keys k (m : @amap K V) x :
    In x (map fst (aremove eqb k m)) <-> x <> k /\ In x (map fst m).
  Proof.
    induction m as [|[j w] m IH]; cbn; [intuition|].
    destruct (eqb j k) eqn:E; cbn.
    - apply eqb_spec in E as ->. rewrite IH. intuition congruence.
    - rewrite IH. split; [|intuition].
      intros [->|H]; [|intuition]. split; [|auto]. intros ->. rewrite eqb_refl_ in E; discriminate.
  Qed.
  Lemma aremove_NoDup k (m : @amap K V) :
    NoDup (map fst m) -> NoDup (map fst (aremove eqb k m)).
  Proof.
    induction m as [|[j w] m IH]; cbn; intros H; auto.
    inversion H as [|? ? Hn Hnd]; subst. destruct (eqb j k) eqn:E; cbn; auto.
    constructor; auto. rewrite aremove_keys. tauto.
  Qed.
End AmapProofs.

Lemma Neqb_spec (a b : N) : N.eqb a b = true <-> a = b.
Proof. apply N.eqb_eq. Qed.
