From Verif Require Import Base BaseProofs Utf8 Utf8Proofs Vfs VfsSpec VfsProofs VfsPath FileSet FileSetSpec.
Local Open Scope N_scope.

(** ** Order *)
Lemma bytes_cmp_eq a b : bytes_cmp a b = Eq <-> a = b.
Proof.
  revert b; induction a as [|x a IH]; intros [|y b]; cbn; split; intros H; try discriminate; auto.
  - destruct (N.compare_spec x y); try discriminate. apply IH in H. congruence.
  - injection H as -> ->. rewrite N.compare_refl. apply IH; auto.
Qed.
Lemma bytes_cmp_antisym a b : bytes_cmp b a = CompOpp (bytes_cmp a b).
Proof.
  revert b; induction a as [|x a IH]; intros [|y b]; cbn; auto.
  rewrite N.compare_antisym. destruct (x ?= y); cbn; auto.
Qed.
Lemma bytes_cmp_lt_trans a b c : bytes_cmp a b = Lt -> bytes_cmp b c = Lt -> bytes_cmp a c = Lt.
Proof.
  revert b c; induction a as [|x a IH]; intros [|y b] [|z c]; cbn; try discriminate; auto.
  destruct (N.compare_spec x y), (N.compare_spec y z); try discriminate; subst; intros H1 H2.
  - rewrite N.compare_refl. eapply IH; eauto.
  - rewrite (proj2 (N.compare_lt_iff y z)); auto.
  - rewrite (proj2 (N.compare_lt_iff x z)); auto.
  - rewrite (proj2 (N.compare_lt_iff x z)); auto. lia.
Qed.
Lemma prefix_cmp a b c : a ++ b = c -> b <> [] -> bytes_cmp a c = Lt.
Proof.
  intros <- Hb. induction a as [|x a IH]; cbn.
  - destruct b; [contradiction|reflexivity].
  - rewrite N.compare_refl. exact IH.
Qed.

Definition ele (a b : bytes * N) : Prop :=
  bytes_cmp (fst a) (fst b) = Lt \/ (fst a = fst b /\ snd a <= snd b).
Lemma entry_leb_ele a b : entry_leb a b = true <-> ele a b.
Proof.
  unfold entry_leb, ele. destruct (bytes_cmp (fst a) (fst b)) eqn:E.
  - apply bytes_cmp_eq in E. split; [intros; right; split; [auto|lia]|].
    intros [H|[_ H]]; [discriminate|lia].
  - split; auto.
  - split; [discriminate|]. intros [H|[H _]]; [discriminate|].
    apply bytes_cmp_eq in H. congruence.
Qed.
Lemma ele_total a b : entry_leb a b = false -> ele b a.
Proof.
  unfold entry_leb, ele. rewrite (bytes_cmp_antisym (fst a) (fst b)).
  destruct (bytes_cmp (fst a) (fst b)) eqn:E; cbn; intros H; try discriminate; auto.
  apply bytes_cmp_eq in E. right. split; [auto|lia].
Qed.
Lemma ele_trans a b c : ele a b -> ele b c -> ele a c.
Proof.
  unfold ele. intros [H1|[H1 H1']] [H2|[H2 H2']].
  - left. eapply bytes_cmp_lt_trans; eauto.
  - left. rewrite <- H2. auto.
  - left. rewrite H1. auto.
  - right. split; [congruence|lia].
Qed.

Inductive esorted : list (bytes * N) -> Prop :=
| es_nil : esorted []
| es_cons x l : (forall y, In y l -> ele x y) -> esorted l -> esorted (x :: l).

Lemma entry_insert_In e l x : In x (entry_insert e l) <-> x = e \/ In x l.
Proof.
  induction l as [|y l IH]; cbn; [intuition congruence|].
  destruct (entry_leb e y); cbn; [intuition congruence|]. rewrite IH. intuition congruence.
Qed.
Lemma entry_sort_In l x : In x (entry_sort l) <-> In x l.
Proof. induction l as [|y l IH]; cbn; [tauto|]. rewrite entry_insert_In, IH. intuition congruence. Qed.
Lemma entry_sort_sorted l : esorted (entry_sort l).
Proof.
  induction l as [|x l IH]; cbn; [constructor|].
  induction IH as [|y m Hy Hs IHm]; cbn.
  - constructor; [intros z []|constructor].
  - destruct (entry_leb x y) eqn:E.
    + apply entry_leb_ele in E. constructor; [|constructor; auto].
      intros z [<-|Hz]; auto. eapply ele_trans; eauto.
    + constructor; auto. intros z Hz. apply entry_insert_In in Hz as [->|Hz]; auto.
      apply ele_total; auto.
Qed.

(** strictly sorted keys *)
Inductive ksorted : list (bytes * N) -> Prop :=
| ks_nil : ksorted []
| ks_cons x l : (forall y, In y l -> bytes_cmp (fst x) (fst y) = Lt) -> ksorted l -> ksorted (x :: l).

Lemma ksorted_strict l : ksorted l -> strictly_increasing l = true.
Proof.
  induction 1 as [|x l Hx Hs IH]; [reflexivity|].
  destruct l as [|y l]; [reflexivity|]. 
  change (match bytes_cmp (fst x) (fst y) with Lt => strictly_increasing (y :: l) | _ => false end = true).
  rewrite Hx by (left; auto). exact IH.
Qed.

Lemma dedup_after_spec last l :
  esorted l -> (forall y, In y l -> last = fst y \/ bytes_cmp last (fst y) = Lt) ->
  ksorted (entry_dedup_after last l) /\
  (forall y, In y (entry_dedup_after last l) -> bytes_cmp last (fst y) = Lt) /\
  (* a kept entry is in the list and carries the least index of its key *)
  (forall y, In y (entry_dedup_after last l) -> In y l /\ forall z, In z l -> fst z = fst y -> snd y <= snd z) /\
  (forall z, In z l -> fst z <> last -> exists y, In y (entry_dedup_after last l) /\ fst y = fst z).
Proof.
  intros Hs. revert last. induction Hs as [|x l Hx Hs IH]; intros last Hle; cbn [entry_dedup_after].
  - repeat split; try constructor; try (intros y []). destruct H. intros z [].
  - destruct (bytes_eqb (fst x) last) eqn:E.
    + apply bytes_eqb_eq in E. destruct (IH last) as [K1 [K2 [K3 K4]]].
      { intros y Hy. apply Hle; right; auto. }
      split; [auto|]. split; [auto|]. split.
      * intros y Hy. destruct (K3 y Hy) as [Hin Hmin]. split; [right; auto|].
        intros z [<-|Hz] Hzy; [|auto]. specialize (K2 y Hy). rewrite <- Hzy, E in K2.
        rewrite (proj2 (bytes_cmp_eq last last) eq_refl) in K2. discriminate.
      * intros z [<-|Hz] Hne; [contradiction|]. auto.
    + assert (Hne : fst x <> last) by (intros H; rewrite (proj2 (bytes_eqb_eq _ _) H) in E; discriminate).
      assert (Hlt : bytes_cmp last (fst x) = Lt).
      { destruct (Hle x (or_introl eq_refl)) as [H|H]; [congruence|auto]. }
      destruct (IH (fst x)) as [K1 [K2 [K3 K4]]].
      { intros y Hy. destruct (Hx y Hy) as [H|[H _]]; auto. }
      split; [constructor; auto|]. split.
      { intros y [<-|Hy]; auto. eapply bytes_cmp_lt_trans; eauto. }
      split.
      * intros y [<-|Hy].
        -- split; [left; auto|]. intros z [<-|Hz] Hzx; [lia|].
           destruct (Hx z Hz) as [H|[_ H]]; [|auto].
           rewrite Hzx, (proj2 (bytes_cmp_eq _ _) eq_refl) in H. discriminate.
        -- destruct (K3 y Hy) as [Hin Hmin]. split; [right; auto|].
           intros z [<-|Hz] Hzy; [|auto]. specialize (K2 y Hy). rewrite Hzy in K2.
           rewrite (proj2 (bytes_cmp_eq _ _) eq_refl) in K2. discriminate.
      * intros z [<-|Hz] Hnz; [exists x; split; [left; auto|auto]|].
        destruct (bytes_eqb (fst z) (fst x)) eqn:E2.
        -- apply bytes_eqb_eq in E2. exists x. split; [left; auto|auto].
        -- destruct (K4 z Hz) as [y [Hy1 Hy2]].
           { intros H. rewrite (proj2 (bytes_eqb_eq _ _) H) in E2. discriminate. }
           exists y. split; [right; auto|auto].
Qed.

Lemma dedup_spec l :
  esorted l ->
  ksorted (entry_dedup l) /\
  (forall y, In y (entry_dedup l) -> In y l /\ forall z, In z l -> fst z = fst y -> snd y <= snd z) /\
  (forall z, In z l -> exists y, In y (entry_dedup l) /\ fst y = fst z).
Proof.
  intros Hs. inversion Hs as [|x m Hx Hm]; subst; cbn [entry_dedup].
  - repeat split; try constructor; try (intros y []); destruct H.
  - destruct (dedup_after_spec (fst x) m Hm) as [K1 [K2 [K3 K4]]].
    { intros y Hy. destruct (Hx y Hy) as [H|[H _]]; auto. }
    split; [constructor; auto|]. split.
    + intros y [<-|Hy].
      * split; [left; auto|]. intros z [<-|Hz] Hzx; [lia|].
        destruct (Hx z Hz) as [H|[_ H]]; [|auto].
        rewrite Hzx, (proj2 (bytes_cmp_eq _ _) eq_refl) in H. discriminate.
      * destruct (K3 y Hy) as [Hin Hmin]. split; [right; auto|].
        intros z [<-|Hz] Hzy; [|auto]. specialize (K2 y Hy). rewrite Hzy in K2.
        rewrite (proj2 (bytes_cmp_eq _ _) eq_refl) in K2. discriminate.
    + intros z [<-|Hz]; [exists x; split; [left; auto|auto]|].
      destruct (bytes_eqb (fst z) (fst x)) eqn:E2.
      * apply bytes_eqb_eq in E2. exists x. split; [left; auto|auto].
      * destruct (K4 z Hz) as [y [Hy1 Hy2]].
        { intros H. rewrite (proj2 (bytes_eqb_eq _ _) H) in E2. discriminate. }
        exists y. split; [right; auto|auto].
Qed.

(** ** Automaton *)
Lemma prefix_fold_None p key : fold_left (prefix_accept p) key None = None.
Proof. induction key; cbn; auto. Qed.
Lemma prefix_fold p key n :
  (exists m, fold_left (prefix_accept p) key (Some n) = Some m) <-> exists r, skipn n p = key ++ r.
Proof.
  revert n; induction key as [|b key IH]; intros n; cbn [fold_left app].
  - split; eauto.
  - cbn [prefix_accept]. destruct (nth_error p n) as [x|] eqn:E.
    + assert (Hsk : skipn n p = x :: skipn (S n) p).
      { clear -E. revert n E; induction p as [|y p IHp]; intros [|n] E; cbn in *; try discriminate.
        - injection E as ->; reflexivity.
        - apply IHp; auto. }
      destruct (x =? b) eqn:Eb.
      * rewrite IH, Hsk. assert (x = b) by lia. subst x.
        split; intros [r Hr]; exists r; congruence.
      * rewrite prefix_fold_None, Hsk. split; [intros [m H]; discriminate|].
        intros [r Hr]. injection Hr as Hr _. lia.
    + rewrite prefix_fold_None. split; [intros [m H]; discriminate|]. intros [r Hr].
      apply nth_error_None in E. rewrite skipn_all2 in Hr by auto. discriminate.
Qed.
Lemma prefix_match_spec p key : prefix_match p key = true <-> is_prefix key p.
Proof.
  unfold prefix_match, is_prefix. pose proof (prefix_fold p key 0) as H. cbn [skipn] in H.
  rewrite <- H. destruct (fold_left _ _ _) as [m|].
  - split; eauto.
  - split; [discriminate|]. intros [m Hm]; discriminate.
Qed.

(** ** classify *)
Lemma classify_fold enc l d :
  ksorted l ->
  (exists e, In e l /\ is_prefix (fst e) enc /\
     fold_left (fun longest e => if prefix_match enc (fst e) then N.to_nat (snd e) else longest) l d = N.to_nat (snd e) /\
     forall e', In e' l -> is_prefix (fst e') enc -> (length (fst e') < length (fst e))%nat \/ e' = e)
  \/ (fold_left (fun longest e => if prefix_match enc (fst e) then N.to_nat (snd e) else longest) l d = d /\
      forall e', In e' l -> ~ is_prefix (fst e') enc).
Proof.
  intros Hs. revert d. induction Hs as [|x l Hx Hs IH]; intros d; cbn [fold_left].
  - right. split; auto.
  - destruct (prefix_match enc (fst x)) eqn:E.
    + apply prefix_match_spec in E. destruct (IH (N.to_nat (snd x))) as [[e [He [Hpe [Hf Hall]]]]|[Hf Hall]].
      * left. exists e. split; [right; auto|]. split; [auto|]. split; [auto|].
        intros e' [<-|He'] Hp; [|auto]. left.
        pose proof (Hx e He) as Hlt. destruct Hpe as [r1 H1], Hp as [r2 H2].
        destruct (Nat.lt_ge_cases (length (fst x)) (length (fst e))) as [|Hge]; auto. exfalso.
        (* then fst e is a prefix of fst x *)
        assert (exists s, fst x = fst e ++ s) as [s Hs'].
        { rewrite H1 in H2. clear -H2 Hge. revert H2 Hge. generalize (fst e) (fst x).
          induction l as [|b l0 IH0]; intros [|c m]; cbn; intros H Hl; eauto; try lia.
          injection H as -> H. destruct (IH0 m H) as [s Hs]; [lia|]. exists s. congruence. }
        destruct s as [|b s].
        -- rewrite app_nil_r in Hs'. rewrite Hs', (proj2 (bytes_cmp_eq _ _) eq_refl) in Hlt. discriminate.
        -- assert (bytes_cmp (fst e) (fst x) = Lt) by (eapply prefix_cmp; [symmetry; eauto|discriminate]).
           rewrite bytes_cmp_antisym, Hlt in H. discriminate.
      * left. exists x. split; [left; auto|]. split; [auto|]. split; [auto|].
        intros e' [<-|He'] Hp; [right; auto|]. exfalso. eapply Hall; eauto.
    + assert (En : ~ is_prefix (fst x) enc).
      { intros H. apply prefix_match_spec in H. congruence. }
      destruct (IH d) as [[e [He [Hpe [Hf Hall]]]]|[Hf Hall]].
      * left. exists e. split; [right; auto|]. split; [auto|]. split; [auto|].
        intros e' [<-|He'] Hp; [contradiction|auto].
      * right. split; auto. intros e' [<-|He']; auto.
Qed.

Lemma entries_from_In i roots k v :
  In (k, v) (entries_from i roots) <->
  exists j root, configured roots j root /\ k = vpath_encode root /\ v = i + N.of_nat j.
Proof.
  revert i; induction roots as [|ps roots IH]; intros i; cbn [entries_from].
  - split; [intros []|]. intros [j [root [[ps [H _]] _]]]. destruct j; discriminate.
  - rewrite in_app_iff, in_map_iff, IH. split.
    + intros [[p [Hp Hin]]|[j [root [[qs [Hn Hin]] [-> ->]]]]].
      * injection Hp as <- <-. exists O, p. split; [exists ps; split; auto|]. split; [auto|lia].
      * exists (S j), root. split; [exists qs; split; auto|]. split; [auto|lia].
    + intros [[|j] [root [[qs [Hn Hin]] [-> ->]]]].
      * left. cbn in Hn. injection Hn as ->. exists root. split; [f_equal; lia|auto].
      * right. exists j, root. split; [exists qs; auto|]. split; [auto|lia].
Qed.

Lemma fsc_build_ok roots : exists c, fsc_build roots = Ok c /\ fsc_n c = (length roots + 1)%nat /\
  fsc_map c = entry_dedup (entry_sort (entries_from 0 roots)).
Proof.
  unfold fsc_build.
  destruct (dedup_spec (entry_sort (entries_from 0 roots)) (entry_sort_sorted _)) as [K _].
  rewrite (ksorted_strict _ K). eauto.
Qed.

Lemma length_encode_inj : forall a b : bytes, length a = length b -> forall p, is_prefix a p -> is_prefix b p -> a = b.
Proof.
  induction a as [|x a IH]; intros [|y b] Hl p [r1 H1] [r2 H2]; cbn in *; try discriminate; auto.
  subst p. injection H2 as -> H2. f_equal. apply (IH b) with (p := a ++ r1); [lia|exists r1; auto|exists r2; auto].
Qed.

Lemma classify_owns roots c p :
  fsc_build roots = Ok c -> owns roots (fsc_classify c p) p.
Proof.
  intros Hb. destruct (fsc_build_ok roots) as [c' [Hb' [Hn Hm]]].
  assert (c' = c) by congruence. subst c'.
  unfold fsc_classify. rewrite Hm, Hn.
  destruct (dedup_spec (entry_sort (entries_from 0 roots)) (entry_sort_sorted _)) as [K [Hmin Hall]].
  destruct (classify_fold (vpath_encode p) _ (length roots + 1 - 1)%nat K) as [[e [He [Hp [Hf Hlong]]]]|[Hf Hno]].
  - rewrite Hf. left. destruct (Hmin e He) as [Hin Hm2].
    rewrite entry_sort_In in Hin. destruct e as [k v]. apply entries_from_In in Hin as [j [root [Hc [Hk Hv]]]].
    cbn [fst snd] in *. subst k. exists root.
    replace (N.to_nat v) with j by lia. split; [auto|]. split; [auto|].
    intros j' root' Hc' Hp'.
    assert (Hin' : In (vpath_encode root', 0 + N.of_nat j') (entries_from 0 roots)).
    { apply entries_from_In. eauto. }
    destruct (Hall (vpath_encode root', 0 + N.of_nat j')) as [y [Hy1 Hy2]]; [apply entry_sort_In; auto|].
    cbn [fst] in Hy2.
    destruct (Hlong y Hy1) as [Hlt|Heq]; [rewrite Hy2; auto| |].
    + left. rewrite <- Hy2. exact Hlt.
    + right. subst y. cbn [fst] in Hy2. rewrite <- Hy2. split; [reflexivity|].
      specialize (Hm2 (vpath_encode root', 0 + N.of_nat j')). cbn [fst snd] in Hm2.
      assert (v <= 0 + N.of_nat j') by (apply Hm2; [apply entry_sort_In; auto|auto]). lia.
  - rewrite Hf. right. split; [lia|]. intros j root' Hc Hp.
    assert (Hin' : In (vpath_encode root', 0 + N.of_nat j) (entries_from 0 roots)).
    { apply entries_from_In. eauto. }
    destruct (Hall (vpath_encode root', 0 + N.of_nat j)) as [y [Hy1 Hy2]]; [apply entry_sort_In; auto|].
    apply (Hno y Hy1). rewrite Hy2. auto.
Qed.

Lemma owns_unique roots p i j : owns roots i p -> owns roots j p -> i = j.
Proof.
  intros [[r1 [C1 [P1 M1]]]|[E1 N1]] [[r2 [C2 [P2 M2]]]|[E2 N2]].
  - destruct (M1 _ _ C2 P2), (M2 _ _ C1 P1); lia.
  - exfalso. eapply N2; eauto.
  - exfalso. eapply N1; eauto.
  - congruence.
Qed.

Lemma owns_lt roots p i : owns roots i p -> (i < length roots + 1)%nat.
Proof.
  intros [[r [[ps [Hn _]] _]]|[-> _]]; [|lia].
  assert (i < length roots)%nat; [apply nth_error_Some; congruence|lia].
Qed.

(** ** Paths as written *)
Lemma prefix_encode a : forall b, scalars a -> scalars b -> (is_prefix (encode a) (encode b) <-> is_prefix a b).
Proof.
  intros b Ha Hb. split.
  - revert b Ha Hb. induction a as [|c a IH]; intros b Ha Hb [r E]; [exists b; reflexivity|].
    unfold scalars in Ha. cbn [forallb] in Ha. apply andb_true_iff in Ha as [Hc Ha].
    pose proof (decode_encode b Hb) as D. rewrite E in D. unfold encode in D. cbn [flat_map] in D.
    rewrite <- app_assoc, decode_enc_char in D by exact Hc.
    destruct (decode (flat_map enc_char a ++ r)) as [b'|] eqn:D'; [|discriminate D]. injection D as <-.
    apply decode_spec in D' as [S' E']. unfold scalars in Hb. cbn [forallb] in Hb. apply andb_true_iff in Hb as [_ Hb].
    destruct (IH b' Ha Hb) as [q ->]; [exists r; exact E'|]. exists q. reflexivity.
  - intros [r ->]. exists (encode r). apply encode_app.
Qed.
Lemma real_written cs : real_str cs = written (Real cs).
Proof.
  destruct cs as [|c cs]; [reflexivity|]. cbn [written real_str].
  induction (c :: cs) as [|x l IH]; [reflexivity|]. cbn [flat_map slashed app]. rewrite <- IH. reflexivity.
Qed.
Lemma encode_written p : vpath_encode p = (if on_disk p then 0 else 1) :: encode (written p).
Proof. destruct p as [cs|s]; cbn [vpath_encode on_disk]; [rewrite real_written|]; reflexivity. Qed.
Lemma above_prefix root p : proper_path root -> proper_path p ->
  (is_prefix (vpath_encode root) (vpath_encode p) <-> above root p).
Proof.
  intros [Sr _] [Sp _]. rewrite !encode_written. unfold above. split.
  - intros [r E]. cbn [app] in E. injection E as E0 E.
    split; [destruct (on_disk root), (on_disk p); cbn in E0; congruence|]. apply prefix_encode; auto. exists r. exact E.
  - intros [E P]. rewrite E. apply (prefix_encode _ _ Sr Sp) in P as [r P]. exists r. cbn [app]. rewrite P. reflexivity.
Qed.

Lemma slash_cut c : forall d r r', ~ In 47 c -> ~ In 47 d -> (r = [] \/ exists x, r = 47 :: x) -> (r' = [] \/ exists x, r' = 47 :: x) ->
  c ++ r = d ++ r' -> c = d /\ r = r'.
Proof.
  induction c as [|a c IH]; intros [|b d] r r' Hc Hd Hr Hr' E; cbn [app] in E.
  - auto.
  - exfalso. destruct Hr as [-> |[x ->]]; [discriminate|]. injection E as <- _. apply Hd. left. reflexivity.
  - exfalso. destruct Hr' as [-> |[x ->]]; [discriminate|]. injection E as -> _. apply Hc. left. reflexivity.
  - injection E as <- E. destruct (IH d r r') as [-> ->]; auto; intros H; [apply Hc|apply Hd]; right; exact H.
Qed.
Lemma slashed_inj a : forall b, Forall (fun c => c <> [] /\ ~ In 47 c) a -> Forall (fun c => c <> [] /\ ~ In 47 c) b ->
  slashed a = slashed b -> a = b.
Proof.
  assert (S : forall l, slashed l = [] \/ exists x, slashed l = 47 :: x) by (intros [|? ?]; cbn; eauto).
  induction a as [|c a IH]; intros [|d b] Ha Hb E; try discriminate E; [reflexivity|].
  inversion Ha as [|? ? [_ Hc] Ha']; subst. inversion Hb as [|? ? [_ Hd] Hb']; subst.
  cbn [slashed] in E. injection E as E. apply slash_cut in E as [-> E]; auto. f_equal. auto.
Qed.
Lemma written_inj p q : proper_path p -> proper_path q -> on_disk p = on_disk q -> written p = written q -> p = q.
Proof.
  intros [_ Hp] [_ Hq] K E. destruct p as [a|s]; destruct q as [b|s']; try discriminate K; cbn [written] in E; [|congruence].
  f_equal. destruct a as [|c a], b as [|d b]; [reflexivity| | |apply slashed_inj; auto].
  - exfalso. inversion Hq as [|? ? [H _] _]; subst. cbn [slashed] in E. injection E as E. destruct d; [auto|discriminate E].
  - exfalso. inversion Hp as [|? ? [H _] _]; subst. cbn [slashed] in E. injection E as E. destruct c; [auto|discriminate E].
Qed.

Lemma owns_nearest roots i p : (forall j root, configured roots j root -> proper_path root) -> proper_path p ->
  (owns roots i p <-> nearest roots i p).
Proof.
  intros Hr Hp.
  assert (Len : forall a b : text, is_prefix a b -> is_prefix a b -> (length a <= length b)%nat).
  { intros a b [r ->] _. rewrite app_length. lia. }
  assert (Tot : forall a b c : list N, is_prefix a c -> is_prefix b c -> (length a <= length b)%nat -> is_prefix a b).
  { induction a as [|x a IH]; intros b c [ra Ea] [rb Eb] L; [exists b; reflexivity|].
    destruct b as [|y b]; [cbn in L; lia|]. subst c. cbn [app] in Eb. injection Eb as -> Eb.
    destruct (IH b (a ++ ra)) as [q ->]; [exists ra; reflexivity|exists rb; exact Eb|cbn in L; lia|]. exists q. reflexivity. }
  (* roots above [p] compare the same way in characters and in bytes *)
  assert (Cmp : forall r1 r2, proper_path r1 -> proper_path r2 -> above r1 p -> above r2 p ->
    ((length (vpath_encode r1) < length (vpath_encode r2))%nat <-> (length (written r1) < length (written r2))%nat) /\
    (length (vpath_encode r1) = length (vpath_encode r2) -> r1 = r2)).
  { intros r1 r2 P1 P2 [K1 A1] [K2 A2].
    assert (Hlt : forall x y, proper_path x -> proper_path y -> is_prefix (written x) (written y) -> on_disk x = on_disk y ->
      (length (vpath_encode x) <= length (vpath_encode y))%nat /\
      (length (vpath_encode x) = length (vpath_encode y) -> x = y) /\
      (length (written x) = length (written y) -> x = y)).
    { intros x y Px Py [q E] K. rewrite !encode_written. cbn [length]. rewrite E, encode_app, !app_length. split; [lia|].
      split; intros L.
      - assert (length (encode q) = O) by lia. destruct q as [|z q].
        + rewrite app_nil_r in E. symmetry. apply written_inj; auto.
        + exfalso. pose proof (encode_length (z :: q)) as L'. cbn [tlen] in L'. unfold utf8_len in L'.
          destruct (z <? 128), (z <? 2048), (z <? 65536); lia.
      - destruct q; [|cbn in L; lia]. rewrite app_nil_r in E. symmetry. apply written_inj; auto. }
    destruct (Nat.le_ge_cases (length (written r1)) (length (written r2))) as [L|L].
    - pose proof (Tot _ _ _ A1 A2 L) as Pf. destruct (Hlt r1 r2 P1 P2 Pf ltac:(congruence)) as (H1 & H2 & H3).
      split; [|exact H2]. split; intros X.
      + destruct (Nat.eq_dec (length (written r1)) (length (written r2))) as [E|E]; [|lia]. rewrite (H3 E) in X. lia.
      + destruct (Nat.eq_dec (length (vpath_encode r1)) (length (vpath_encode r2))) as [E|E]; [|lia]. rewrite (H2 E) in X. lia.
    - pose proof (Tot _ _ _ A2 A1 L) as Pf. destruct (Hlt r2 r1 P2 P1 Pf ltac:(congruence)) as (H1 & H2 & H3).
      split; [split; intros X; lia|]. intros E. symmetry. apply H2. lia. }
  unfold owns, nearest. split.
  - intros [(root & C & P & M)|[E N]].
    + left. exists root. split; [exact C|]. pose proof (proj1 (above_prefix _ _ (Hr _ _ C) Hp) P) as A. split; [exact A|].
      intros j root' C' A'. pose proof (proj2 (above_prefix _ _ (Hr _ _ C') Hp) A') as P'.
      destruct (Cmp root' root (Hr _ _ C') (Hr _ _ C) A' A) as [C1 C2].
      destruct (M _ _ C' P') as [L|[L1 L2]]; [left; apply C1; exact L|right; auto].
    + right. split; [exact E|]. intros j root' C A. apply (N _ _ C). apply above_prefix; eauto.
  - intros [(root & C & A & M)|[E N]].
    + left. exists root. split; [exact C|]. split; [apply above_prefix; eauto|].
      intros j root' C' P'. pose proof (proj1 (above_prefix _ _ (Hr _ _ C') Hp) P') as A'.
      destruct (Cmp root' root (Hr _ _ C') (Hr _ _ C) A' A) as [C1 C2].
      destruct (M _ _ C' A') as [L|[-> L2]]; [left; apply C1; exact L|right; auto].
    + right. split; [exact E|]. intros j root' C P. apply (N _ _ C). apply above_prefix; eauto.
Qed.

(** ** The directory reading *)
Lemma slashed_app a b : slashed (a ++ b) = slashed a ++ slashed b.
Proof. induction a as [|c a IH]; [reflexivity|]. cbn [app slashed]. rewrite IH, <- app_assoc. reflexivity. Qed.
Lemma encloses_above root p : encloses root p -> above root p.
Proof.
  unfold above. destruct root as [b|b], p as [a|a]; cbn [encloses on_disk]; try tauto; intros [more ->]; (split; [reflexivity|]).
  - destruct b as [|c b].
    + destruct more as [|d more]; [exists []; reflexivity|]. exists (d ++ slashed more). reflexivity.
    + exists (slashed more). cbn [app written]. change (c :: b ++ more) with ((c :: b) ++ more). apply slashed_app.
Qed.
Lemma written_depth p r1 r2 : proper_path r1 -> proper_path r2 -> encloses r1 p -> encloses r2 p ->
  ((length (written r1) < length (written r2))%nat <-> (depth r1 < depth r2)%nat).
Proof.
  assert (G : forall a b, Forall (fun c => c <> [] /\ ~ In 47 c) b -> (length a < length b)%nat ->
     (exists m m', a ++ m = b ++ m') -> (length (written (Real a)) < length (written (Real b)))%nat).
  { intros a b F L (m & m' & E).
    assert (P : exists x, b = a ++ x /\ x <> []).
    { revert b F L E. induction a as [|c a IH]; intros b F L E; [exists b; split; [reflexivity|destruct b; [cbn in L; lia|discriminate]]|].
      destruct b as [|d b]; [cbn in L; lia|]. cbn [app] in E. injection E as <- E. inversion F; subst.
      destruct (IH b ltac:(assumption) ltac:(cbn in L; lia) E) as (x & -> & Hx). exists x. auto. }
    destruct P as (x & -> & Hx). destruct x as [|y x]; [congruence|]. destruct a as [|c a].
    - cbn [app] in *. inversion F as [|? ? [Hy _] _]; subst. cbn [written slashed length]. rewrite app_length.
      destruct y; [congruence|]. cbn [length]. lia.
    - cbn [app written]. change (c :: a ++ y :: x) with ((c :: a) ++ (y :: x)). rewrite slashed_app, app_length.
      cbn [slashed length]. lia. }
  intros [_ P1] [_ P2] E1 E2. destruct r1 as [b1|b1], r2 as [b2|b2], p as [a|a]; cbn [encloses] in *; try tauto.
  destruct E1 as [m1 E1], E2 as [m2 E2]. cbn [depth]. split; intros L.
  - destruct (lt_eq_lt_dec (length b1) (length b2)) as [[H|H]|H]; [exact H| |].
    + exfalso. assert (b1 = b2); [|subst b2; lia]. rewrite E1 in E2. clear - E2 H. revert b2 H E2.
      induction b1 as [|c b1 IH]; intros [|d b2] H E; try discriminate; [reflexivity|].
      cbn [app] in E. injection E as <- E. f_equal. apply IH; [cbn in H; lia|exact E].
    + exfalso. pose proof (G b2 b1 P1 H (ex_intro _ m2 (ex_intro _ m1 (eq_trans (eq_sym E2) E1)))). lia.
  - apply G; [exact P2|exact L|]. exists m1, m2. congruence.
Qed.
Lemma nearest_dirs roots i p :
  (forall j root, configured roots j root -> proper_path root /\ ~ misleading root p) ->
  (nearest roots i p <-> nearest_dir roots i p).
Proof.
  intros H.
  assert (Dec : forall root, {encloses root p} + {~ encloses root p}).
  { assert (T : forall (A : Type) (eqd : forall x y : A, {x = y} + {x <> y}) (b a : list A), {exists m, a = b ++ m} + {~ exists m, a = b ++ m}).
    { intros A eqd. induction b as [|x b IH]; intros a; [left; exists a; reflexivity|].
      destruct a as [|y a]; [right; intros [m E]; discriminate|].
      destruct (eqd x y) as [->|N]; [|right; intros [m E]; injection E as E _; congruence].
      destruct (IH a) as [Y|N]; [left; destruct Y as [m ->]; exists m; reflexivity|].
      right. intros [m E]. injection E as E. apply N. eauto. }
    intros root. destruct root as [b|b], p as [a|a]; cbn [encloses]; try (right; tauto).
    - apply T. apply list_eq_dec. apply N.eq_dec.
    - apply T. apply N.eq_dec. }
  assert (Iff : forall j root, configured roots j root -> (above root p <-> encloses root p)).
  { intros j root C. split; [|apply encloses_above]. intros A. destruct (Dec root) as [E|N]; [exact E|].
    exfalso. apply (proj2 (H _ _ C)). split; auto. }
  split.
  - intros [(root & C & A & M)|[E N]].
    + left. exists root. split; [exact C|]. split; [apply (Iff _ _ C), A|]. intros j root' C' E'.
      destruct (M _ _ C' (encloses_above _ _ E')) as [L|L]; [left|right; exact L].
      apply (written_depth p); [apply (H _ _ C')|apply (H _ _ C)|exact E'|apply (Iff _ _ C), A|exact L].
    + right. split; [exact E|]. intros j root' C X. apply (N _ _ C). apply encloses_above. exact X.
  - intros [(root & C & A & M)|[E N]].
    + left. exists root. split; [exact C|]. split; [apply (Iff _ _ C), A|]. intros j root' C' E'. apply (Iff _ _ C') in E'.
      destruct (M _ _ C' E') as [L|L]; [left|right; exact L].
      apply (written_depth p); [apply (H _ _ C')|apply (H _ _ C)|exact E'|exact A|exact L].
    + right. split; [exact E|]. intros j root' C X. apply (N _ _ C). apply (Iff _ _ C). exact X.
Qed.

(** ** iter and partition *)
Lemma vfs_iter_from_spec v ids :
  vfs_inv v -> (forall i, In i ids -> (i < length (v_data v))%nat) -> NoDup ids ->
  exists l, vfs_iter_from v ids = Ok l /\ NoDup (map fst l) /\
    (forall id p, In (id, p) l <-> In (N.to_nat id) ids /\ live v id = true /\ vfs_file_path v id = Ok p).
Proof.
  intros [Hnd Hlen] Hlt Hids. induction Hids as [|i ids Hni Hids IH]; cbn [vfs_iter_from].
  - exists []. split; [auto|]. split; [constructor|]. intros id p. cbn. tauto.
  - destruct IH as [l [Hl [Hn Hin]]]; [intros; apply Hlt; right; auto|].
    unfold vfs_get. rewrite Nat2N.id.
    destruct (nth_error (v_data v) i) as [d|] eqn:Ed.
    2:{ apply nth_error_None in Ed. specialize (Hlt i (or_introl eq_refl)). lia. }
    cbn [index bind]. destruct d as [c|].
    + destruct (nth_error (v_interner v) i) as [q|] eqn:Eq.
      2:{ apply nth_error_None in Eq. specialize (Hlt i (or_introl eq_refl)). lia. }
      unfold interner_lookup. rewrite Nat2N.id, Eq. cbn [unwrap bind]. rewrite Hl. cbn [bind].
      eexists; split; [reflexivity|]. split.
      * cbn [map fst]. constructor; auto. intros Hc. apply in_map_iff in Hc as [[id p] [Hid Hc]].
        cbn in Hid. apply Hin in Hc as [Hc _]. apply Hni. subst id. rewrite Nat2N.id in Hc. auto.
      * intros id p. cbn [In]. rewrite Hin. split.
        -- intros [H|[H1 [H2 H3]]]; [|auto]. injection H as <- <-. rewrite Nat2N.id.
           split; [auto|]. unfold live, vfs_file_path, interner_lookup. rewrite Nat2N.id, Ed, Eq. auto.
        -- intros [[H|H] [H2 H3]]; [|auto]. left. subst i. rewrite N2Nat.id.
           unfold vfs_file_path, interner_lookup in H3. rewrite Eq in H3. cbn in H3. congruence.
    + rewrite Hl. exists l. split; [auto|]. split; [auto|]. intros id p. rewrite Hin. cbn [In].
      split; [tauto|]. intros [[H|H] [H2 H3]]; [|auto]. exfalso. subst i.
      unfold live in H2. rewrite Ed in H2. discriminate.
Qed.

Lemma vfs_iter_spec v :
  vfs_inv v ->
  exists l, vfs_iter v = Ok l /\ NoDup (map fst l) /\
    (forall id p, In (id, p) l <-> live v id = true /\ vfs_file_path v id = Ok p).
Proof.
  intros Hinv. destruct (vfs_iter_from_spec v (seq 0 (length (v_data v))) Hinv) as [l [Hl [Hn Hin]]].
  - intros i Hi. apply in_seq in Hi. lia.
  - apply seq_NoDup.
  - exists l. split; [auto|]. split; [auto|]. intros id p. rewrite Hin, in_seq. split; [tauto|].
    intros [H1 H2]. split; [|auto]. unfold live in H1.
    assert (N.to_nat id < length (v_data v))%nat; [|lia]. apply nth_error_Some.
    destruct (nth_error (v_data v) (N.to_nat id)); congruence.
Qed.

(** One file set describes exactly the pairs in [S]. *)
Definition describes (f : file_set) (S : N -> vpath -> Prop) : Prop :=
  (forall id p, fs_path_for_file f id = Some p <-> S id p) /\
  (forall id p, fs_file_for_path f p = Some id <-> S id p).

Lemma partition_loop_spec c files r done :
  (forall p, (fsc_classify c p < length r)%nat) ->
  (* ids and paths are in bijection over done ++ files *)
  (forall id p q, In (id, p) (done ++ files) -> In (id, q) (done ++ files) -> p = q) ->
  (forall i j p, In (i, p) (done ++ files) -> In (j, p) (done ++ files) -> i = j) ->
  NoDup (map fst (done ++ files)) ->
  (forall k f, nth_error r k = Some f -> describes f (fun id p => In (id, p) done /\ fsc_classify c p = k)) ->
  exists r', partition_loop c files r = Ok r' /\ length r' = length r /\
    forall k f, nth_error r' k = Some f -> describes f (fun id p => In (id, p) (done ++ files) /\ fsc_classify c p = k).
Proof.
  revert r done; induction files as [|[id p] files IH]; intros r done Hlt Hfun Hinj Hnd Hdesc; cbn [partition_loop].
  - exists r. rewrite app_nil_r. auto.
  - destruct (nth_error r (fsc_classify c p)) as [s|] eqn:Es.
    2:{ apply nth_error_None in Es. specialize (Hlt p). lia. }
    cbn [index bind].
    destruct (IH (set_nth r (fsc_classify c p) (fs_insert s id p)) (done ++ [(id, p)])) as [r' [H1 [H2 H3]]].
    + intros q. rewrite set_nth_length. auto.
    + intros. rewrite <- app_assoc in *. eapply Hfun; eauto.
    + intros. rewrite <- app_assoc in *. eapply Hinj; eauto.
    + rewrite <- app_assoc. exact Hnd.
    + assert (Hfresh : forall q, ~ In (id, q) done).
      { intros q Hq. rewrite map_app in Hnd. apply NoDup_remove_2 in Hnd. apply Hnd.
        apply in_or_app; left. apply in_map_iff. exists (id, q); auto. }
      intros k f Hk. destruct (Nat.eq_dec (fsc_classify c p) k) as [Ek|Ek].
      * subst k. rewrite set_nth_eq in Hk by (apply Hlt). injection Hk as <-.
        destruct (Hdesc _ _ Es) as [D1 D2]. split.
        -- intros i q. unfold fs_path_for_file, fs_insert; cbn [fs_paths].
           destruct (N.eq_dec id i) as [->|Hne].
           ++ rewrite alookup_insert by apply Neqb_spec. rewrite in_app_iff; cbn [In]. split.
              ** intros H; injection H as ->. auto.
              ** intros [[H|[H|[]]] _]; [exfalso; eapply Hfresh; eauto|congruence].
           ++ rewrite alookup_insert_ne by (auto using Neqb_spec; apply Neqb_spec).
              change (fs_path_for_file s i = Some q <-> (In (i, q) (done ++ [(id, p)]) /\ fsc_classify c q = fsc_classify c p)).
              rewrite D1, in_app_iff; cbn [In]. split; [tauto|].
              intros [[H|[H|[]]] Hc]; [auto|]. congruence.
        -- intros i q. unfold fs_file_for_path, fs_insert; cbn [fs_files].
           destruct (vpath_eqb p q) eqn:Eq.
           ++ apply vpath_eqb_eq in Eq as <-. rewrite alookup_insert by apply vpath_eqb_eq.
              rewrite in_app_iff; cbn [In]. split.
              ** intros H; injection H as ->. auto.
              ** intros [[H|[H|[]]] _]; [|congruence]. f_equal. symmetry.
                 apply (Hinj i id p); [apply in_or_app; left; auto|apply in_or_app; right; left; auto].
           ++ apply vpath_eqb_neq in Eq. rewrite alookup_insert_ne by (auto; apply vpath_eqb_eq).
              change (fs_file_for_path s q = Some i <-> (In (i, q) (done ++ [(id, p)]) /\ fsc_classify c q = fsc_classify c p)).
              rewrite D2, in_app_iff; cbn [In]. split; [tauto|].
              intros [[H|[H|[]]] Hc]; [auto|]. congruence.
      * rewrite set_nth_ne in Hk by auto. destruct (Hdesc _ _ Hk) as [D1 D2]. split.
        -- intros i q. rewrite D1, in_app_iff; cbn [In]. split; [tauto|].
           intros [[H|[H|[]]] Hc]; [auto|]. congruence.
        -- intros i q. rewrite D2, in_app_iff; cbn [In]. split; [tauto|].
           intros [[H|[H|[]]] Hc]; [auto|]. congruence.
    + exists r'. rewrite <- app_assoc in H3. cbn [app] in H3. rewrite set_nth_length in H2. auto.
Qed.

Lemma partition_spec roots c v :
  fsc_build roots = Ok c -> vfs_inv v ->
  exists sets, fsc_partition c v = Ok sets /\ length sets = (length roots + 1)%nat /\
    forall k f, nth_error sets k = Some f ->
      describes f (fun id p => live v id = true /\ vfs_file_path v id = Ok p /\ fsc_classify c p = k).
Proof.
  intros Hb Hinv. destruct (vfs_iter_spec v Hinv) as [l [Hl [Hn Hin]]].
  destruct (fsc_build_ok roots) as [c' [Hb' [Hn' _]]]. assert (c' = c) by congruence. subst c'.
  unfold fsc_partition. rewrite Hl. cbn [bind].
  destruct (partition_loop_spec c l (repeat file_set_default (fsc_n c)) []) as [r' [H1 [H2 H3]]].
  - intros p. rewrite repeat_length, Hn'. eapply owns_lt. apply classify_owns; eauto.
  - intros id p q H1 H2. apply Hin in H1, H2. destruct H1, H2. congruence.
  - intros i j p H1 H2. apply Hin in H1, H2. destruct H1, H2. eapply file_path_inj; eauto.
  - exact Hn.
  - intros k f Hk. apply nth_error_In in Hk. apply repeat_spec in Hk. subst f.
    split; intros; cbn; split; try discriminate; tauto.
  - exists r'. rewrite repeat_length in H2. split; [auto|]. split; [lia|].
    intros k f Hk. destruct (H3 k f Hk) as [D1 D2]. cbn [app] in *. split; intros id p.
    + rewrite D1, Hin. tauto.
    + rewrite D2, Hin. tauto.
Qed.
