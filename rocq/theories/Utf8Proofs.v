From Verif Require Import Base BaseProofs Utf8.
Local Open Scope N_scope.
Ltac Zify.zify_post_hook ::= Z.div_mod_to_equations.

Lemma decode_enc_char c r : is_scalar c = true ->
  decode (enc_char c ++ r) = option_map (cons c) (decode r).
Proof.
  intros Hs. unfold enc_char.
  destruct (c <? 0x80) eqn:E1; [cbn [app decode]; rewrite E1; reflexivity|].
  destruct (c <? 0x800) eqn:E2.
  { cbn [app decode].
    assert (A : 0xC0 + c / 64 <? 0x80 = false) by lia. rewrite A.
    assert (B : (0xC0 <=? 0xC0 + c / 64) && (0xC0 + c / 64 <? 0xE0) = true) by lia. rewrite B.
    replace ((0xC0 + c / 64 - 0xC0) * 64 + (0x80 + c mod 64 - 0x80)) with c by lia.
    unfold is_cont.
    assert (C : (0x80 <=? 0x80 + c mod 64) && (0x80 + c mod 64 <? 0xC0) && (0x80 <=? c) = true) by lia.
    rewrite C. reflexivity. }
  destruct (c <? 0x10000) eqn:E3.
  { cbn [app decode].
    assert (A : 0xE0 + c / 4096 <? 0x80 = false) by lia. rewrite A.
    assert (B : (0xC0 <=? 0xE0 + c / 4096) && (0xE0 + c / 4096 <? 0xE0) = false) by lia. rewrite B.
    assert (B2 : (0xE0 <=? 0xE0 + c / 4096) && (0xE0 + c / 4096 <? 0xF0) = true) by lia. rewrite B2.
    replace ((0xE0 + c / 4096 - 0xE0) * 4096 + (0x80 + (c / 64) mod 64 - 0x80) * 64
             + (0x80 + c mod 64 - 0x80)) with c by lia.
    rewrite Hs. unfold is_cont.
    assert (C : (0x80 <=? 0x80 + (c / 64) mod 64) && (0x80 + (c / 64) mod 64 <? 0xC0) &&
         ((0x80 <=? 0x80 + c mod 64) && (0x80 + c mod 64 <? 0xC0)) && (0x800 <=? c) && true = true) by lia.
    rewrite C. reflexivity. }
  assert (Hc : c <= 0x10FFFF) by (unfold is_scalar in Hs; lia).
  cbn [app decode].
  assert (A : 0xF0 + c / 262144 <? 0x80 = false) by lia. rewrite A.
  assert (B : (0xC0 <=? 0xF0 + c / 262144) && (0xF0 + c / 262144 <? 0xE0) = false) by lia. rewrite B.
  assert (B2 : (0xE0 <=? 0xF0 + c / 262144) && (0xF0 + c / 262144 <? 0xF0) = false) by lia. rewrite B2.
  assert (B3 : (0xF0 <=? 0xF0 + c / 262144) && (0xF0 + c / 262144 <? 0xF8) = true) by lia. rewrite B3.
  replace ((0xF0 + c / 262144 - 0xF0) * 262144 + (0x80 + (c / 4096) mod 64 - 0x80) * 4096 +
           (0x80 + (c / 64) mod 64 - 0x80) * 64 + (0x80 + c mod 64 - 0x80)) with c by lia.
  rewrite Hs. unfold is_cont.
  assert (C : (0x80 <=? 0x80 + (c / 4096) mod 64) && (0x80 + (c / 4096) mod 64 <? 0xC0) &&
              ((0x80 <=? 0x80 + (c / 64) mod 64) && (0x80 + (c / 64) mod 64 <? 0xC0)) &&
              ((0x80 <=? 0x80 + c mod 64) && (0x80 + c mod 64 <? 0xC0)) && (0x10000 <=? c) && true = true) by lia.
  rewrite C. reflexivity.
Qed.

Definition scalars (t : text) : Prop := forallb is_scalar t = true.

Lemma decode_encode t : scalars t -> decode (encode t) = Some t.
Proof.
  unfold scalars, encode. induction t as [|c t IH]; cbn [forallb flat_map]; intros H; [reflexivity|].
  apply andb_prop in H as [H1 H2]. rewrite decode_enc_char by auto. rewrite IH by auto. reflexivity.
Qed.

Lemma decode_scalars_strong n l t :
  (length l <= n)%nat -> decode l = Some t -> scalars t /\ encode t = l.
Proof.
  unfold scalars. revert l t; induction n as [|n IH]; intros l t Hn.
  { destruct l; cbn in Hn; [|lia]. cbn. intros H; injection H as <-; split; reflexivity. }
  destruct l as [|b0 r0]; cbn [decode].
  { intros H; injection H as <-; split; reflexivity. }
  cbn [length] in Hn.
  destruct (b0 <? 0x80) eqn:E1.
  { destruct (decode r0) as [t0|] eqn:D; cbn [option_map]; [|discriminate].
    intros H; injection H as <-. apply IH in D as [Hs He]; [|lia].
    cbn [forallb]. rewrite Hs. split; [unfold is_scalar; lia|].
    unfold encode in *. cbn [flat_map]. rewrite He. unfold enc_char. rewrite E1. reflexivity. }
  destruct ((0xC0 <=? b0) && (b0 <? 0xE0)) eqn:E2.
  { destruct r0 as [|b1 r1]; [discriminate|].
    destruct (is_cont b1 && _) eqn:C; [|discriminate].
    set (c := (b0 - 0xC0) * 64 + (b1 - 0x80)) in *.
    destruct (decode r1) as [t0|] eqn:D; cbn [option_map]; [|discriminate].
    intros H; injection H as <-. cbn [length] in Hn. apply IH in D as [Hs He]; [|lia].
    cbn [forallb]. rewrite Hs. unfold is_cont in C.
    split; [unfold is_scalar; lia|].
    unfold encode in *. cbn [flat_map]. rewrite He. unfold enc_char.
    assert (A : c <? 0x80 = false) by lia. assert (B : c <? 0x800 = true) by lia. rewrite A, B.
    cbn [app]. repeat (f_equal; try lia). }
  destruct ((0xE0 <=? b0) && (b0 <? 0xF0)) eqn:E3.
  { destruct r0 as [|b1 [|b2 r2]]; try discriminate.
    destruct (is_cont b1 && _ && _ && _) eqn:C; [|discriminate].
    set (c := (b0 - 0xE0) * 4096 + (b1 - 0x80) * 64 + (b2 - 0x80)) in *.
    destruct (decode r2) as [t0|] eqn:D; cbn [option_map]; [|discriminate].
    intros H; injection H as <-. cbn [length] in Hn. apply IH in D as [Hs He]; [|lia].
    cbn [forallb]. rewrite Hs. unfold is_cont in C. apply andb_prop in C as [C Hsc]. rewrite Hsc.
    split; [reflexivity|].
    unfold encode in *. cbn [flat_map]. rewrite He. unfold enc_char.
    assert (A : c <? 0x80 = false) by lia. assert (B : c <? 0x800 = false) by lia.
    assert (B2 : c <? 0x10000 = true) by lia. rewrite A, B, B2.
    cbn [app]. clear He Hs IH Hn Hsc A B B2 E1. f_equal; [|f_equal; [|f_equal]]; lia. }
  destruct ((0xF0 <=? b0) && (b0 <? 0xF8)) eqn:E4; [|discriminate].
  destruct r0 as [|b1 [|b2 [|b3 r3]]]; try discriminate.
  destruct (is_cont b1 && _ && _ && _ && _) eqn:C; [|discriminate].
  set (c := (b0 - 0xF0) * 262144 + (b1 - 0x80) * 4096 + (b2 - 0x80) * 64 + (b3 - 0x80)) in *.
  destruct (decode r3) as [t0|] eqn:D; cbn [option_map]; [|discriminate].
  intros H; injection H as <-. cbn [length] in Hn. apply IH in D as [Hs He]; [|lia].
  cbn [forallb]. rewrite Hs. unfold is_cont in C. apply andb_prop in C as [C Hsc]. rewrite Hsc.
  split; [reflexivity|].
  unfold encode in *. cbn [flat_map]. rewrite He. unfold enc_char.
  assert (A : c <? 0x80 = false) by lia. assert (B : c <? 0x800 = false) by lia.
  assert (B2 : c <? 0x10000 = false) by lia. rewrite A, B, B2.
  cbn [app]. clear He Hs IH Hn Hsc A B B2 E1 E2 E3. f_equal; [|f_equal; [|f_equal; [|f_equal]]]; lia.
Qed.

Lemma decode_spec l t : decode l = Some t -> scalars t /\ encode t = l.
Proof. eapply decode_scalars_strong; reflexivity. Qed.

Lemma encode_app a b : encode (a ++ b) = encode a ++ encode b.
Proof. apply flat_map_app. Qed.

Lemma encode_length t : N.of_nat (length (encode t)) = tlen t.
Proof.
  unfold encode. induction t as [|c t IH]; cbn [flat_map tlen]; [reflexivity|].
  rewrite app_length. unfold enc_char, utf8_len in *.
  destruct (c <? 0x80), (c <? 0x800), (c <? 0x10000); cbn [length]; lia.
Qed.

Lemma scalars_app a b : scalars (a ++ b) <-> scalars a /\ scalars b.
Proof. unfold scalars. rewrite forallb_app. apply andb_true_iff. Qed.
