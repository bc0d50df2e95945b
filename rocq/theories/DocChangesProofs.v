From Verif Require Import Base BaseProofs TextSpec LineIndex LineIndexProofs DocChanges DocChangesSpec.
Local Open Scope N_scope.

(** Two indices answer alike on lines below [k]. *)
Definition agree (a b : line_index) (k : N) : Prop :=
  forall l, l < k ->
    nth_error (newlines a) (N.to_nat l) = nth_error (newlines b) (N.to_nat l) /\
    alookup N.eqb l (utf16_lines a) = alookup N.eqb l (utf16_lines b).

Lemma fp_offset_agree a b k p :
  agree a b k -> p_line p < k -> fp_offset Utf16 a p = fp_offset Utf16 b p.
Proof.
  intros H Hl. destruct (H _ Hl) as [H1 H2].
  unfold fp_offset, li_to_utf8, utf16_to_utf8_col, li_offset. cbn [lc_line lc_col].
  rewrite H2. destruct (alookup N.eqb (p_line p) (utf16_lines b)) as [cs|].
  - destruct (utf16_to_utf8_loop cs (p_char p)); cbn [bind lc_line lc_col]; rewrite ?H1; reflexivity.
  - cbn [bind lc_line lc_col]. rewrite H1. reflexivity.
Qed.

Lemma nth_line_app pre x l :
  l < count_lf pre -> nth_line (pre ++ x) (N.to_nat l) = nth_line pre (N.to_nat l).
Proof.
  revert l; induction pre as [|c pre IH]; intros l Hl; cbn [count_lf] in Hl; [lia|].
  unfold nth_line in *. cbn [app lines_of].
  pose proof (lines_of_nonempty (pre ++ x)) as Hne. pose proof (lines_of_nonempty pre) as Hne2.
  destruct (c =? cLF) eqn:Ec.
  - destruct (N.to_nat l) as [|n] eqn:En; [reflexivity|]. cbn [nth].
    replace n with (N.to_nat (l - 1)) by lia. apply IH; lia.
  - specialize (IH l ltac:(lia)).
    destruct (lines_of (pre ++ x)) as [|y ys]; [contradiction|].
    destruct (lines_of pre) as [|z zs]; [contradiction|].
    destruct (N.to_nat l); cbn [nth] in *; [rewrite IH|]; auto.
Qed.

Lemma agree_prefix pre x y : agree (li_build (pre ++ x)) (li_build (pre ++ y)) (count_lf pre).
Proof.
  intros l Hl. split.
  - rewrite !newlines_build, !starts_from_app, !app_comm_cons.
    assert (Hlen : (N.to_nat l < length (0%N :: starts_from 0 pre))%nat)
      by (cbn [length]; pose proof (starts_from_length 0 pre); lia).
    rewrite !nth_error_app1 by exact Hlen. reflexivity.
  - rewrite !utf16_lines_build, !nth_line_app by auto. reflexivity.
Qed.

Lemma agree_weaken a b k k' : agree a b k -> k' <= k -> agree a b k'.
Proof. intros H Hk l Hl. apply H; lia. Qed.
Lemma agree_trans a b c k : agree a b k -> agree b c k -> agree a c k.
Proof. intros H1 H2 l Hl. destruct (H1 l Hl) as [-> ->]. apply H2; auto. Qed.
Lemma agree_refl a k : agree a a k.
Proof. intros l Hl; split; reflexivity. Qed.

(** An offset computed for a line lies at or after the start of that line. *)
Lemma fp_offset_line pre x p :
  fp_offset Utf16 (li_build (pre ++ x)) p = Ok (tlen pre) -> p_line p <= count_lf pre.
Proof.
  unfold fp_offset, li_to_utf8. cbn [lc_line lc_col].
  destruct (utf16_to_utf8_col _ _ _) as [col| |]; cbn [bind]; try discriminate.
  unfold li_offset; cbn [lc_line lc_col].
  destruct (nth_error _ _) as [st|] eqn:E; cbn [index bind]; [|discriminate].
  unfold u32_add. destruct (_ <? _); [|discriminate]. intros H; injection H as H.
  destruct (N.le_gt_cases (p_line p) (count_lf pre)) as [|Hgt]; auto. exfalso.
  rewrite newlines_build, starts_from_app, app_comm_cons in E.
  rewrite nth_error_app2 in E
    by (cbn [length]; pose proof (starts_from_length 0 pre); lia).
  apply nth_error_In in E. apply starts_from_gt in E. lia.
Qed.

Definition valid_ok (li : line_index) (t : text) (v : index_valid) : Prop :=
  match v with
  | All => li = li_build t
  | UpToLineExclusive k => agree li (li_build t) k
  end.

Lemma replace_range_ok t s e new t' :
  replace_range t s e new = Ok t' ->
  exists before old after, t = before ++ old ++ after /\ t' = before ++ new ++ after /\
    tlen before = s /\ tlen (before ++ old) = e.
Proof.
  unfold replace_range.
  destruct (split_at t s) as [[b1 a1]|] eqn:E1; [|discriminate].
  destruct (split_at t e) as [[b2 a2]|] eqn:E2; [|discriminate].
  destruct (s <=? e) eqn:E3; [|discriminate]. intros H; injection H as <-.
  apply split_at_spec in E1 as [H1 L1]. apply split_at_spec in E2 as [H2 L2].
  (* b1 is a prefix of b2 *)
  assert (Hp : exists old, b2 = b1 ++ old /\ a1 = old ++ a2).
  { clear -H1 H2 L1 L2 E3. revert b2 t s e H1 H2 L1 L2 E3.
    induction b1 as [|c b1 IH]; intros b2 t s e H1 H2 L1 L2 E3.
    - exists b2. cbn in *. subst. auto.
    - destruct b2 as [|d b2].
      + cbn [tlen] in *. pose proof (utf8_len_pos c). lia.
      + cbn [app] in *. subst t. injection H2 as -> H2. cbn [tlen] in *.
        destruct (IH b2 (b1 ++ a1) (tlen b1) (tlen b2) eq_refl H2 eq_refl eq_refl) as [old [-> ->]]; [lia|].
        exists old; auto. }
  destruct Hp as [old [-> ->]]. exists b1, old, a2. subst. repeat split; auto.
Qed.

Lemma tlen_replace_le t s e new t' :
  replace_range t s e new = Ok t' -> tlen t' <= tlen t + tlen new.
Proof.
  intros H. apply replace_range_ok in H as [b [o [a [-> [-> _]]]]]. rewrite !tlen_app. lia.
Qed.

Lemma changes_loop_fresh chs t li v :
  batch_size t chs < u32_bound ->
  Forall ordered_lines chs ->
  valid_ok li t v ->
  changes_loop (t, li, v) chs = apply_all_fresh t chs.
Proof.
  revert t li v; induction chs as [|ch chs IH]; intros t li v Hsz Hord Hv; [reflexivity|].
  inversion Hord as [|? ? Ho Hord']; subst.
  cbn [changes_loop apply_all_fresh change_step apply_fresh].
  unfold change_step, apply_fresh, ordered_lines in *.
  assert (Hmono : forall t', tlen t' <= tlen t + tlen (ch_text ch) -> batch_size t' chs < u32_bound).
  { intros t' Ht'. cbn [batch_size] in Hsz.
    assert (G : forall cs a b d, tlen a <= tlen b + d -> batch_size a cs <= batch_size b cs + d).
    { induction cs as [|c0 cs IHc]; intros a b d Hab; cbn [batch_size]; [exact Hab|].
      specialize (IHc a b d Hab). lia. }
    specialize (G chs t' t (tlen (ch_text ch)) Ht'). lia. }
  assert (Htl : tlen t < u32_bound).
  { assert (G : forall cs a, tlen a <= batch_size a cs).
    { induction cs as [|c0 cs IHc]; intros a; cbn [batch_size]; [lia|]. specialize (IHc a). lia. }
    specialize (G (ch :: chs) t). lia. }
  destruct (ch_range ch) as [range|] eqn:Er.
  2:{ cbn [bind]. apply IH; auto.
      - apply Hmono. lia.
      - cbn. intros l Hl; lia. }
  set (li' := if negb (covers v (p_line (r_end range))) then li_build t else li).
  assert (Hli' : (if negb (covers v (p_line (r_end range))) then li_new t else Ok li) = Ok li').
  { unfold li'. destruct (negb _); auto. unfold li_new. destruct (_ <? _) eqn:E; auto; lia. }
  rewrite Hli'. cbn [bind].
  assert (Hag : agree li' (li_build t) (p_line (r_end range) + 1)).
  { unfold li'. destruct v as [|k]; cbn [covers negb].
    - cbn in Hv. subst li. apply agree_refl.
    - destruct (_ <? k) eqn:E; cbn [negb]; [|apply agree_refl].
      cbn in Hv. eapply agree_weaken; eauto. lia. }
  assert (Heq : fp_text_range Utf16 li' range = fp_text_range Utf16 (li_build t) range).
  { unfold fp_text_range.
    rewrite (fp_offset_agree li' (li_build t) _ (r_start range) Hag) by lia.
    rewrite (fp_offset_agree li' (li_build t) _ (r_end range) Hag) by lia. reflexivity. }
  rewrite Heq.
  destruct (fp_text_range Utf16 (li_build t) range) as [[s e]| |] eqn:Et; cbn [bind]; auto.
  destruct (replace_range t s e (ch_text ch)) as [t'| |] eqn:Erp; cbn [bind]; auto.
  apply IH; auto.
  - apply Hmono. eapply tlen_replace_le; eauto.
  - cbn [valid_ok]. 
    pose proof Erp as Erp0. apply replace_range_ok in Erp0 as [b [o [a [Ht [Ht' [Hs He]]]]]].
    eapply agree_trans; [eapply agree_weaken; [exact Hag|lia]|].
    eapply agree_weaken with (k := count_lf b).
    + rewrite Ht, Ht'. apply agree_prefix.
    + unfold fp_text_range in Et.
      destruct (fp_offset Utf16 (li_build t) (r_start range)) as [s0| |] eqn:Es0; cbn [bind] in Et; try discriminate.
      destruct (fp_offset Utf16 (li_build t) (r_end range)) as [e0| |]; cbn [bind] in Et; try discriminate.
      destruct (s0 <=? e0); [|discriminate]. injection Et as -> ->.
      rewrite Ht in Es0. rewrite <- Hs in Es0. apply fp_offset_line in Es0. lia.
Qed.

Lemma tlen_le_batch t chs : tlen t <= batch_size t chs.
Proof. induction chs as [|c chs IH]; cbn [batch_size]; lia. Qed.

Lemma apply_changes_fresh t chs :
  batch_size t chs < u32_bound -> Forall ordered_lines chs ->
  apply_document_changes t chs = apply_all_fresh t chs.
Proof.
  intros Hs Ho. unfold apply_document_changes, li_new.
  pose proof (tlen_le_batch t chs).
  destruct (tlen t <? u32_bound) eqn:E; [|lia]. cbn [bind].
  apply changes_loop_fresh; auto. reflexivity.
Qed.

(** ** Edits described by text splits *)
Lemma count_lf_le_app a b : count_lf a <= count_lf (a ++ b).
Proof. rewrite count_lf_app; lia. Qed.

Lemma client_edit_ordered t ch t' : client_edit t ch t' -> ordered_lines ch.
Proof.
  intros [b o a n|]; cbn; auto. apply count_lf_le_app.
Qed.

Lemma client_edit_fresh t ch t' :
  tlen t < u32_bound -> client_edit t ch t' -> apply_fresh t ch = Ok t'.
Proof.
  intros Ht H. destruct H as [b o a n|t0 n]; [|reflexivity].
  unfold apply_fresh; cbn [ch_range ch_text].
  rewrite !tlen_app in Ht.
  assert (Hs : fp_offset Utf16 (li_build (b ++ o ++ a)) (lsp_pos b) = Ok (tlen b)).
  { change (lsp_pos b) with (spec_position Utf16 b). apply fp_offset_spec. lia. }
  assert (He : fp_offset Utf16 (li_build (b ++ o ++ a)) (lsp_pos (b ++ o)) = Ok (tlen (b ++ o))).
  { change (lsp_pos (b ++ o)) with (spec_position Utf16 (b ++ o)). rewrite app_assoc.
    apply fp_offset_spec. rewrite tlen_app; lia. }
  unfold fp_text_range; cbn [r_start r_end]. rewrite Hs, He. cbn [bind].
  rewrite tlen_app. destruct (_ <=? _) eqn:E; [|lia]. cbn [bind].
  unfold replace_range. rewrite split_at_app, app_assoc, <- tlen_app, split_at_app.
  rewrite tlen_app, E. reflexivity.
Qed.

Lemma client_edits_fresh t chs t' :
  batch_size t chs < u32_bound -> client_edits t chs t' -> apply_all_fresh t chs = Ok t'.
Proof.
  intros Hsz He. induction He as [|t ch t1 chs t2 H1 H2 IH]; [reflexivity|].
  cbn [apply_all_fresh]. pose proof (tlen_le_batch t (ch :: chs)).
  rewrite (client_edit_fresh t ch t1) by (auto; lia). cbn [bind]. apply IH.
  assert (tlen t1 <= tlen t + tlen (ch_text ch)).
  { destruct H1; cbn [ch_text]; rewrite ?tlen_app; lia. }
  cbn [batch_size] in Hsz.
  assert (G : forall cs a b d, tlen a <= tlen b + d -> batch_size a cs <= batch_size b cs + d).
  { induction cs as [|c0 cs IHc]; intros a b d Hab; cbn [batch_size]; [exact Hab|].
    specialize (IHc a b d Hab). lia. }
  specialize (G chs t1 t _ H0). lia.
Qed.

Lemma client_edits_ordered t chs t' : client_edits t chs t' -> Forall ordered_lines chs.
Proof. induction 1; constructor; auto. eapply client_edit_ordered; eauto. Qed.

Lemma client_edits_applied t chs t' :
  batch_size t chs < u32_bound -> client_edits t chs t' -> apply_document_changes t chs = Ok t'.
Proof.
  intros Hs He. rewrite apply_changes_fresh; auto using client_edits_fresh.
  eapply client_edits_ordered; eauto.
Qed.

(** ** all_edits_are_disjoint *)
Lemma pos_leb_spec a b :
  pos_leb a b = true <-> p_line a < p_line b \/ (p_line a = p_line b /\ p_char a <= p_char b).
Proof.
  unfold pos_leb, pos_cmp.
  destruct (N.compare_spec (p_line a) (p_line b)); [|intuition lia|].
  - destruct (N.compare_spec (p_char a) (p_char b)); intuition (try lia; try discriminate).
  - split; [discriminate|lia].
Qed.

Definition rle (a b : lrange) : Prop := pos_leb (r_start a) (r_start b) = true.
Lemma range_leb_rle a b : range_leb a b = true -> rle a b.
Proof.
  unfold range_leb, rle, pos_leb. destruct (pos_cmp _ _); auto.
Qed.
Lemma range_leb_total a b : range_leb a b = false -> range_leb b a = true.
Proof.
  unfold range_leb, pos_leb, pos_cmp.
  rewrite (N.compare_antisym (p_line (r_start a)) (p_line (r_start b))).
  rewrite (N.compare_antisym (p_char (r_start a)) (p_char (r_start b))).
  rewrite (N.compare_antisym (p_line (r_end a)) (p_line (r_end b))).
  rewrite (N.compare_antisym (p_char (r_end a)) (p_char (r_end b))).
  destruct (p_line (r_start a) ?= p_line (r_start b)); cbn; auto; try discriminate;
  destruct (p_char (r_start a) ?= p_char (r_start b)); cbn; auto; try discriminate;
  destruct (p_line (r_end a) ?= p_line (r_end b)); cbn; auto; try discriminate;
  destruct (p_char (r_end a) ?= p_char (r_end b)); cbn; auto; try discriminate.
Qed.

Lemma range_leb_spec a b :
  range_leb a b = true <->
  (p_line (r_start a) < p_line (r_start b) \/
   p_line (r_start a) = p_line (r_start b) /\ (p_char (r_start a) < p_char (r_start b) \/
   p_char (r_start a) = p_char (r_start b) /\ pos_leb (r_end a) (r_end b) = true)).
Proof.
  unfold range_leb, pos_cmp.
  destruct (N.compare_spec (p_line (r_start a)) (p_line (r_start b)));
    [|intuition lia|split; [discriminate|lia]].
  destruct (N.compare_spec (p_char (r_start a)) (p_char (r_start b)));
    [intuition lia|intuition lia|split; [discriminate|lia]].
Qed.
Lemma range_leb_trans a b c :
  range_leb a b = true -> range_leb b c = true -> range_leb a c = true.
Proof. rewrite !range_leb_spec, !pos_leb_spec. lia. Qed.

Inductive rsorted : list lrange -> Prop :=
| rs_nil : rsorted []
| rs_cons x l : (forall y, In y l -> range_leb x y = true) -> rsorted l -> rsorted (x :: l).

Lemma insert_In r l x : In x (insert_sorted r l) <-> x = r \/ In x l.
Proof.
  induction l as [|y l IH]; cbn; [intuition congruence|].
  destruct (range_leb r y); cbn; [intuition congruence|]. rewrite IH. intuition congruence.
Qed.
Lemma sort_In l x : In x (sort_ranges l) <-> In x l.
Proof. induction l as [|y l IH]; cbn; [tauto|]. rewrite insert_In, IH. intuition congruence. Qed.
Lemma insert_rsorted r l : rsorted l -> rsorted (insert_sorted r l).
Proof.
  induction 1 as [|x l Hx Hs IH]; cbn.
  - constructor; [intros y []|constructor].
  - destruct (range_leb r x) eqn:E.
    + constructor; [|constructor; auto].
      intros y [<-|Hy]; auto. eapply range_leb_trans; eauto.
    + constructor; auto. intros y Hy. apply insert_In in Hy as [->|Hy]; auto.
      apply range_leb_total; auto.
Qed.
Lemma sort_rsorted l : rsorted (sort_ranges l).
Proof. induction l as [|x l IH]; cbn; [constructor|]. apply insert_rsorted; auto. Qed.

(* pairwise disjointness is invariant under insertion position *)
Lemma disjoint_sym a b : disjoint a b -> disjoint b a.
Proof. unfold disjoint; tauto. Qed.
Lemma pairwise_insert r l :
  pairwise_disjoint (insert_sorted r l) <-> (forall b, In b l -> disjoint r b) /\ pairwise_disjoint l.
Proof.
  induction l as [|x l IH]; cbn; [tauto|].
  destruct (range_leb r x); cbn; [tauto|]. rewrite IH.
  split.
  - intros [H1 [H2 H3]]. split; [|split]; auto.
    + intros b [<-|Hb]; auto. apply disjoint_sym, H1, insert_In; auto.
    + intros b Hb. apply H1, insert_In; auto.
  - intros [H1 [H2 H3]]. split; [|split]; auto.
    intros b Hb. apply insert_In in Hb as [->|Hb]; auto. apply disjoint_sym; auto.
Qed.
Lemma pairwise_sort l : pairwise_disjoint (sort_ranges l) <-> pairwise_disjoint l.
Proof.
  induction l as [|x l IH]; cbn; [tauto|]. rewrite pairwise_insert, IH.
  split; intros [H1 H2]; split; auto; intros b Hb; apply H1; apply sort_In; auto.
Qed.

Lemma adjacent_pairwise l :
  rsorted l -> (forall r, In r l -> well_formed r) ->
  (adjacent_ok l = true <-> pairwise_disjoint l).
Proof.
  induction 1 as [|x l Hx Hs IH]; intros Hwf; [cbn; tauto|].
  assert (IH' : adjacent_ok l = true <-> pairwise_disjoint l) by (apply IH; intros; apply Hwf; right; auto).
  destruct l as [|y l]; [cbn; intuition|].
  change (adjacent_ok (x :: y :: l)) with (pos_leb (r_end x) (r_start y) && adjacent_ok (y :: l)).
  rewrite andb_true_iff, IH'. split.
  - intros [H1 H2]. split; auto. intros b Hb. left.
    destruct Hb as [<-|Hb]; auto.
    assert (Hyb : range_leb y b = true) by (inversion Hs; auto).
    apply range_leb_rle in Hyb. unfold rle in Hyb. rewrite pos_leb_spec in *. lia.
  - intros [H1 H2]. split; auto.
    assert (Hxy : range_leb x y = true) by (apply Hx; left; auto).
    destruct (H1 y (or_introl eq_refl)) as [H|H]; auto.
    (* y ends before x starts although x starts first: both empty at one point *)
    assert (Wx : well_formed x) by (apply Hwf; left; auto).
    assert (Wy : well_formed y) by (apply Hwf; right; left; auto).
    unfold well_formed in *. apply range_leb_spec in Hxy. rewrite pos_leb_spec in *. lia.
Qed.

Lemma adjacent_sort_iff l :
  (forall r, In r l -> well_formed r) ->
  (adjacent_ok (sort_ranges l) = true <-> pairwise_disjoint l).
Proof.
  intros Hwf. eapply iff_trans; [|apply pairwise_sort].
  apply adjacent_pairwise; [apply sort_rsorted|].
  intros r Hr. apply Hwf, sort_In, Hr.
Qed.
