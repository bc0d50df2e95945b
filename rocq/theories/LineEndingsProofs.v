From Verif Require Import Base BaseProofs Utf8 Utf8Proofs LineEndings.
Local Open Scope N_scope.

Lemma crlf_cons a r :
  crlf_to_lf (a :: r) =
  match r with
  | b :: r' => if (a =? cCR) && (b =? cLF) then b :: crlf_to_lf r' else a :: crlf_to_lf r
  | [] => [a]
  end.
Proof. destruct r as [|b r]; reflexivity. Qed.

Lemma find_crlf_none l : find_crlf l = None -> crlf_to_lf l = l.
Proof.
  induction l as [|a l IH]; [reflexivity|]. rewrite crlf_cons.
  destruct l as [|b r]; [reflexivity|]. cbn [find_crlf] in *.
  destruct ((a =? cCR) && (b =? cLF)); [discriminate|].
  intros H. rewrite IH; auto.
  destruct r as [|c r']; auto. destruct ((b =? cCR) && (c =? cLF)); [discriminate|].
  destruct (find_crlf (c :: r')); [discriminate|reflexivity].
Qed.

Lemma find_crlf_some l i : find_crlf l = Some i ->
  exists a b, l = a ++ cCR :: cLF :: b /\ length a = i /\
    crlf_to_lf l = a ++ crlf_to_lf (cLF :: b).
Proof.
  revert i; induction l as [|a l IH]; intros i; [discriminate|].
  destruct l as [|b r]; [discriminate|]. 
  change (find_crlf (a :: b :: r)) with
    (if (a =? cCR) && (b =? cLF) then Some O else option_map S (find_crlf (b :: r))).
  rewrite crlf_cons.
  destruct ((a =? cCR) && (b =? cLF)) eqn:E.
  - intros H; injection H as <-. exists [], r. repeat split.
    + cbn. f_equal; [|f_equal]; lia.
    + cbn [app]. replace b with cLF by lia. rewrite crlf_cons.
      destruct r as [|c r']; reflexivity.
  - destruct (find_crlf (b :: r)) as [j|] eqn:Ej; [|discriminate].
    intros H; injection H as <-. destruct (IH j eq_refl) as [x [y [H1 [H2 H3]]]].
    exists (a :: x), y. rewrite H3. rewrite H1. cbn. auto.
Qed.

Lemma skipn_skipn' {A} n m (l : list A) : skipn n (skipn m l) = skipn (m + n) l.
Proof.
  revert l; induction m as [|m IH]; intros l; [reflexivity|].
  destruct l as [|x l]; cbn [skipn Nat.add]; [apply skipn_nil|apply IH].
Qed.

Lemma norm_loop_spec fuel done tail gap :
  (gap <= length tail)%nat -> (length tail - gap < fuel)%nat ->
  exists buf' gap',
    norm_loop fuel done tail gap = Ok (buf', gap') /\
    firstn (length buf' - gap') buf' = done ++ crlf_to_lf (skipn gap tail).
Proof.
  revert done tail gap; induction fuel as [|fuel IH]; intros done tail gap Hg Hf; [lia|].
  cbn [norm_loop]. destruct (gap <=? length tail)%nat eqn:E; [|lia].
  cbv zeta. remember (skipn gap tail) as rest eqn:Erest.
  assert (Hlr : length rest = (length tail - gap)%nat) by (subst rest; apply skipn_length).
  destruct (find_crlf rest) as [i|] eqn:Ef.
  - destruct (find_crlf_some rest i Ef) as [a [b [Hrest [Hi Hc]]]].
    replace (i + gap - gap)%nat with i by lia.
    assert (Hm : firstn i rest = a) by (rewrite Hrest, <- Hi, firstn_app, firstn_all, Nat.sub_diag, app_nil_r; reflexivity).
    rewrite Hm.
    assert (Hs1 : firstn i (a ++ skipn i tail) = a) by (rewrite <- Hi, firstn_app, firstn_all, Nat.sub_diag, app_nil_r; reflexivity).
    assert (Hs2 : skipn i (a ++ skipn i tail) = skipn i tail).
    { rewrite <- Hi at 1. rewrite skipn_app, skipn_all, Nat.sub_diag. reflexivity. }
    rewrite Hs1, Hs2.
    assert (Hlen : length rest = (i + S (S (length b)))%nat).
    { rewrite Hrest, app_length, Hi. reflexivity. }
    rewrite skipn_length.
    destruct (length tail - i =? gap)%nat eqn:E2; [lia|].
    destruct (IH (done ++ a) (skipn i tail) (S gap)) as [buf' [gap' [H1 H2]]].
    { rewrite skipn_length; lia. }
    { rewrite skipn_length; lia. }
    exists buf', gap'. split; [exact H1|]. rewrite H2, Hc, <- app_assoc. do 2 f_equal.
    assert (Hk : skipn (S gap) (skipn i tail) = skipn (S i) rest).
    { subst rest. rewrite !skipn_skipn'. f_equal; lia. }
    rewrite Hk, Hrest, <- Hi.
    replace (S (length a)) with (length (a ++ [cCR])) by (rewrite app_length; cbn; lia).
    replace (a ++ cCR :: cLF :: b) with ((a ++ [cCR]) ++ cLF :: b) by (rewrite <- app_assoc; reflexivity).
    rewrite skipn_app, skipn_all, Nat.sub_diag. reflexivity.
  - rewrite find_crlf_none by auto.
    replace (firstn (length tail - gap) rest) with rest
      by (rewrite <- Hlr; symmetry; apply firstn_all).
    assert (Hs1 : firstn (length tail - gap) (rest ++ skipn (length tail - gap) tail) = rest).
    { rewrite <- Hlr at 1. rewrite firstn_app, firstn_all, Nat.sub_diag, app_nil_r. reflexivity. }
    assert (Hs2 : skipn (length tail - gap) (rest ++ skipn (length tail - gap) tail) = skipn (length tail - gap) tail).
    { rewrite <- Hlr at 1. rewrite skipn_app, skipn_all, Nat.sub_diag. reflexivity. }
    rewrite Hs1, Hs2. rewrite skipn_length.
    destruct (length tail - (length tail - gap) =? gap)%nat eqn:E2; [|lia].
    exists ((done ++ rest) ++ skipn (length tail - gap) tail), gap. split; [reflexivity|].
    rewrite app_length, skipn_length.
    replace (length (done ++ rest) + (length tail - (length tail - gap)) - gap)%nat
      with (length (done ++ rest)) by lia.
    rewrite firstn_app, firstn_all, Nat.sub_diag, app_nil_r. reflexivity.
Qed.

(** Multi-byte sequences contain neither CR nor LF bytes. *)
Lemma enc_char_ascii c : c <? 0x80 = true -> enc_char c = [c].
Proof. unfold enc_char. intros ->. reflexivity. Qed.
Lemma enc_char_high c b : c <? 0x80 = false -> In b (enc_char c) -> 0x80 <= b.
Proof.
  unfold enc_char. intros ->. destruct (c <? 0x800), (c <? 0x10000); cbn [In]; intuition lia.
Qed.

Lemma crlf_skip_high h r :
  (forall b, In b h -> 0x80 <= b) -> crlf_to_lf (h ++ r) = h ++ crlf_to_lf r.
Proof.
  induction h as [|a h IH]; intros H; [reflexivity|].
  cbn [app]. rewrite crlf_cons.
  assert (Ha : 0x80 <= a) by (apply H; left; auto).
  assert (E : a =? cCR = false) by (unfold cCR; lia). rewrite E. cbn [andb].
  rewrite <- (IH (fun b Hb => H b (or_intror Hb))).
  destruct (h ++ r); reflexivity.
Qed.

Lemma enc_char_nonnil c : enc_char c <> [].
Proof. unfold enc_char. destruct (c <? 0x80), (c <? 0x800), (c <? 0x10000); discriminate. Qed.

Lemma enc_char_first c : c <> cLF ->
  exists b l, enc_char c = b :: l /\ b <> cLF.
Proof.
  intros Hc. destruct (c <? 0x80) eqn:E.
  - exists c, []. rewrite enc_char_ascii by auto. auto.
  - destruct (enc_char c) as [|b l] eqn:Eb; [destruct (enc_char_nonnil c Eb)|].
    exists b, l. split; auto. assert (0x80 <= b); [|unfold cLF; lia].
    apply (enc_char_high c); auto. rewrite Eb; left; auto.
Qed.

Lemma crlf_encode t : crlf_to_lf (encode t) = encode (crlf_to_lf t).
Proof.
  assert (G : forall n t, (length t <= n)%nat -> crlf_to_lf (encode t) = encode (crlf_to_lf t)).
  2:{ apply (G (length t)); lia. }
  clear t. induction n as [|n IH]; intros t Hn.
  { destruct t; [reflexivity|cbn in Hn; lia]. }
  destruct t as [|c t]; [reflexivity|]. cbn [length] in Hn.
  rewrite (crlf_cons c t). cbn [encode flat_map]. fold (encode t).
  destruct (c <? 0x80) eqn:Ec.
  2:{ rewrite crlf_skip_high by (intros b; apply enc_char_high; auto).
      rewrite IH by lia. destruct t as [|d t].
      - cbn [encode flat_map crlf_to_lf]. reflexivity.
      - assert (E : c =? cCR = false) by (unfold cCR; lia). rewrite E. reflexivity. }
  rewrite enc_char_ascii by auto. cbn [app]. rewrite crlf_cons.
  destruct t as [|d t].
  { cbn [encode flat_map]. rewrite enc_char_ascii by auto. reflexivity. }
  destruct ((c =? cCR) && (d =? cLF)) eqn:E.
  - assert (d = cLF) by lia. subst d.
    change (encode (cLF :: t)) with (cLF :: encode t).
    cbv iota beta. rewrite E. cbn [length] in Hn. rewrite IH by lia. reflexivity.
  - destruct (d =? cLF) eqn:Ed.
    + assert (d = cLF) by lia. subst d.
      change (encode (cLF :: t)) with (cLF :: encode t).
      cbv iota beta. rewrite andb_true_r in E. rewrite E. cbn [andb]. change (cLF :: encode t) with (encode (cLF :: t)). rewrite IH by lia.
      cbn [encode flat_map]. rewrite enc_char_ascii by auto. reflexivity.
    + destruct (enc_char_first d) as [b [l [Hb Hne]]]; [lia|].
      assert (Hen : encode (d :: t) = b :: (l ++ encode t)) by (cbn [encode flat_map]; rewrite Hb; reflexivity).
      rewrite Hen. assert (E2 : b =? cLF = false) by lia. rewrite E2, andb_false_r.
      rewrite <- Hen. rewrite IH by lia.
      cbn [encode flat_map]. rewrite enc_char_ascii by auto. reflexivity.
Qed.

Lemma contains_cr_encode t :
  existsb (fun b => b =? cCR) (encode t) = existsb (fun c => c =? cCR) t.
Proof.
  induction t as [|c t IH]; [reflexivity|]. cbn [encode flat_map existsb].
  rewrite existsb_app. fold (encode t). rewrite IH. f_equal.
  destruct (c <? 0x80) eqn:E.
  - rewrite enc_char_ascii by auto. cbn [existsb]. apply orb_false_r.
  - assert (Hf : c =? cCR = false) by (unfold cCR; lia). rewrite Hf.
    destruct (existsb _ (enc_char c)) eqn:Ex; auto.
    apply existsb_exists in Ex as [b [Hb1 Hb2]]. apply enc_char_high in Hb1; auto. unfold cCR in *; lia.
Qed.

Lemma crlf_no_cr t : existsb (fun c => c =? cCR) t = false -> crlf_to_lf t = t.
Proof.
  induction t as [|c t IH]; [reflexivity|]. cbn [existsb]. intros H.
  apply orb_false_iff in H as [H1 H2]. rewrite crlf_cons, H1. cbn [andb].
  rewrite IH by auto. destruct t; reflexivity.
Qed.

Lemma crlf_scalars t : scalars t -> scalars (crlf_to_lf t).
Proof.
  unfold scalars. assert (G : forall n t, (length t <= n)%nat -> forallb is_scalar t = true -> forallb is_scalar (crlf_to_lf t) = true).
  2:{ apply (G (length t)); lia. }
  clear t. induction n as [|n IH]; intros t Hn H.
  { destruct t; [reflexivity|cbn in Hn; lia]. }
  destruct t as [|c t]; [reflexivity|]. rewrite crlf_cons. cbn [length forallb] in *.
  apply andb_prop in H as [H1 H2].
  destruct t as [|d t]; [cbn; rewrite H1; reflexivity|].
  destruct ((c =? cCR) && (d =? cLF)).
  - cbn [forallb length] in *. apply andb_prop in H2 as [H2 H3]. rewrite H2, IH; auto; lia.
  - change (is_scalar c && forallb is_scalar (crlf_to_lf (d :: t)) = true). rewrite H1, IH; auto; lia.
Qed.

Lemma crlf_to_lf_tlen t : tlen (crlf_to_lf t) <= tlen t.
Proof.
  assert (G : forall n t, (length t <= n)%nat -> tlen (crlf_to_lf t) <= tlen t).
  2:{ apply (G (length t)); lia. }
  clear t. induction n as [|n IH]; intros t Hn.
  { destruct t; [cbn; lia|cbn in Hn; lia]. }
  destruct t as [|c t]; [cbn; lia|]. rewrite crlf_cons. cbn [length] in Hn. destruct t as [|d t]; [cbn; lia|].
  destruct ((c =? cCR) && (d =? cLF)); cbn [length] in Hn.
  - pose proof (IH t ltac:(lia)). cbn [tlen]. lia.
  - pose proof (IH (d :: t) ltac:(cbn [length]; lia)). cbn [tlen] in *. lia.
Qed.

Definition has_cr (t : text) : bool := existsb (fun c => c =? cCR) t.

Lemma normalize_spec t :
  scalars t -> normalize t = Ok (crlf_to_lf t, if has_cr t then Dos else Unix).
Proof.
  intros Hs. unfold normalize. rewrite contains_cr_encode. unfold has_cr.
  destruct (existsb _ t) eqn:E; cbn [negb].
  - destruct (norm_loop_spec (S (length (encode t))) [] (encode t) 0) as [buf' [gap' [H1 H2]]]; [lia|lia|].
    rewrite H1. cbn [bind]. rewrite H2. cbn [app skipn]. rewrite crlf_encode.
    rewrite decode_encode by (apply crlf_scalars; auto). reflexivity.
  - rewrite crlf_no_cr by auto. reflexivity.
Qed.

(** ** What is left: a CR LF in the result comes from a CR CR LF *)
Lemma crlf_app a c r : c <> cLF -> crlf_to_lf (a ++ c :: r) = crlf_to_lf a ++ crlf_to_lf (c :: r).
Proof.
  intros H. remember (length a) as n eqn:E. assert (L : (length a <= n)%nat) by lia. clear E. revert a L.
  induction n as [|n IH]; intros a L.
  - destruct a; [reflexivity|cbn in L; lia].
  - destruct a as [|x a]; [reflexivity|]. cbn [length] in L. destruct a as [|y a].
    + cbn [app]. rewrite crlf_cons. replace (c =? cLF) with false by (symmetry; apply N.eqb_neq; exact H).
      rewrite andb_false_r. reflexivity.
    + cbn [app]. rewrite (crlf_cons x (y :: a ++ c :: r)), (crlf_cons x (y :: a)).
      cbn [length] in L. destruct ((x =? cCR) && (y =? cLF)).
      * cbn [app]. f_equal. apply IH. lia.
      * cbn [app]. f_equal. apply (IH (y :: a)). cbn [length]. lia.
Qed.
Lemma crlf_left t : (exists a b, crlf_to_lf t = a ++ cCR :: cLF :: b) <-> (exists a b, t = a ++ cCR :: cCR :: cLF :: b).
Proof.
  split.
  - intros (a & b & E). remember (length t) as n eqn:En. assert (L : (length t <= n)%nat) by lia. clear En. revert t L a b E.
    induction n as [|n IH]; intros t L a b E.
    + destruct t; [destruct a; discriminate|cbn in L; lia].
    + destruct t as [|x t]; [destruct a; discriminate|]. rewrite crlf_cons in E. cbn [length] in L.
      destruct t as [|y r]; [destruct a as [|? [|? ?]]; discriminate|]. cbn [length] in L.
      destruct ((x =? cCR) && (y =? cLF)) eqn:P.
      * apply andb_true_iff in P as [_ P]. apply N.eqb_eq in P. subst y.
        destruct a as [|z a]; [discriminate|]. cbn [app] in E. injection E as _ E.
        destruct (IH r ltac:(lia) _ _ E) as (a' & b' & ->). exists (x :: cLF :: a'), b'. reflexivity.
      * destruct a as [|z a]; cbn [app] in E; injection E as Ex E.
        -- subst x. change (cCR =? cCR) with true in P. cbn [andb] in P. change (crlf_to_lf (y :: r) = cLF :: b) in E. rewrite crlf_cons in E.
           destruct r as [|w r]; [injection E as -> _; discriminate P|].
           destruct ((y =? cCR) && (w =? cLF)) eqn:Q.
           ++ apply andb_true_iff in Q as [Q1 Q2]. apply N.eqb_eq in Q1, Q2. subst. exists [], r. reflexivity.
           ++ injection E as -> _. discriminate P.
        -- change (crlf_to_lf (y :: r) = a ++ cCR :: cLF :: b) in E. destruct (IH (y :: r) ltac:(cbn [length]; lia) _ _ E) as (a' & b' & E'). rewrite E'. exists (x :: a'), b'. reflexivity.
  - intros (a & b & ->). rewrite crlf_app by discriminate. exists (crlf_to_lf a), (crlf_to_lf b). f_equal.
Qed.
Lemma crlf_fixed t : crlf_to_lf t = t <-> ~ exists a b, t = a ++ cCR :: cLF :: b.
Proof.
  split.
  - intros E (a & b & Et).
    assert (G : forall n a b, (length a <= n)%nat -> (length (crlf_to_lf (a ++ cCR :: cLF :: b)) < length (a ++ cCR :: cLF :: b))%nat).
    { assert (S : forall n t, (length t <= n)%nat -> (length (crlf_to_lf t) <= length t)%nat).
      { induction n as [|n IH]; intros u L; [destruct u; [cbn; lia|cbn in L; lia]|].
        destruct u as [|x u]; [cbn; lia|]. rewrite crlf_cons. cbn [length] in *. destruct u as [|y r]; [cbn; lia|].
        cbn [length] in L. destruct ((x =? cCR) && (y =? cLF)); cbn [length].
        - specialize (IH r ltac:(lia)). lia.
        - specialize (IH (y :: r) ltac:(cbn [length]; lia)). cbn [length] in IH. lia. }
      induction n as [|n IH]; intros a' b' L.
      - destruct a'; [|cbn in L; lia]. cbn [app]. rewrite crlf_cons. cbn [length]. specialize (S _ b' (le_n _)).
        change ((cCR =? cCR) && (cLF =? cLF)) with true. cbn match. cbn [length]. lia.
      - destruct a' as [|x a']; [apply IH; cbn; lia|]. cbn [length] in L. cbn [app]. rewrite crlf_cons.
        destruct a' as [|y a'].
        + cbn [app]. change (cCR =? cLF) with false. rewrite andb_false_r. cbn [length].
          specialize (IH [] b' ltac:(cbn; lia)). cbn [app length] in IH. lia.
        + cbn [app length] in *. destruct ((x =? cCR) && (y =? cLF)); cbn [length].
          * specialize (IH a' b' ltac:(lia)). lia.
          * specialize (IH (y :: a') b' ltac:(cbn [length]; lia)). cbn [app length] in IH. lia. }
    specialize (G _ a b (le_n _)). rewrite <- Et, E in G. lia.
  - intros N. destruct (find_crlf t) as [i|] eqn:F.
    + destruct (find_crlf_some t i F) as (a & b & Et & _). exfalso. apply N. eauto.
    + apply find_crlf_none. exact F.
Qed.
