(** Properties C39-C42 and C44, C45: helpers.  Specification: StdxSpec.v. *)
From Coq Require Import String Sorted.
From Verif Require Import Base BaseProofs Lexer LexerProofs Stdx StdxSpec StdxProofs.
Local Open Scope N_scope.

(** ** C39.  At most one operation at a time, none lost. *)
(** At any time the queue says "in progress" exactly when one operation was
    started and not completed; there are never two. *)
Theorem C39_at_most_one : forall R (d : R) calls q h,
  op_run (op_queue_default d) calls = Some (q, h) ->
  (running h 0 <= 1)%nat /\ op_in_progress q = Nat.eqb (running h 0) 1 /\ map fst h = calls.
Proof.
  intros R d cs q h H. destruct (op_run_reads _ _ _ _ H) as (H1 & H2 & _ & _ & H5). cbn in *. auto.
Qed.
(** Asking to start answers yes exactly when none is running and a request was
    made since the last start: no start without a request, no request lost. *)
Theorem C39_starts_when_idle_and_requested : forall R (d : R) calls q h,
  op_run (op_queue_default d) calls = Some (q, h) ->
  snd (should_start_op q) = (Nat.eqb (running h 0) 0 && pending h false)%bool.
Proof.
  intros R d cs q h H. destruct (op_run_reads _ _ _ _ H) as (H1 & H2 & H3 & _). cbn in *.
  unfold should_start_op. rewrite H1.
  destruct (running h 0) as [|[|n]]; cbn in *; [rewrite H3; reflexivity|reflexivity|lia].
Qed.
(** A completion is accepted exactly when an operation is running, and its
    result is the one reported until the next. *)
Theorem C39_completion : forall R (d : R) calls q h x,
  op_run (op_queue_default d) calls = Some (q, h) ->
  last_op_result q = last_result h d /\
  (running h 0 = 1%nat -> exists q', op_completed q x = Ok q' /\ last_op_result q' = x /\ op_in_progress q' = false) /\
  (running h 0 = 0%nat -> op_completed q x = Panic PAssert).
Proof.
  intros R d cs q h x H. destruct (op_run_reads _ _ _ _ H) as (H1 & H2 & H3 & H4 & _). cbn in *.
  split; [exact H4|]. unfold op_completed. rewrite H1. split; intros ->; cbn; [eauto|reflexivity].
Qed.
Example queue_history : exists q h,
  op_run (op_queue_default 0) [Request; ShouldStart; Request; ShouldStart; Completed 7; ShouldStart] = Some (q, h) /\
  h = [(Request, false); (ShouldStart, true); (Request, false); (ShouldStart, false); (Completed 7, false); (ShouldStart, true)].
Proof. eexists. eexists. split; vm_compute; reflexivity. Qed.

(** ** C40.  [equal_range_by] on a slice sorted by [key]: exactly the equal run. *)
Theorem C40_equal_range : forall A (key : A -> comparison) l,
  StronglySorted (fun x y => cmp_le (key x) (key y)) l ->
  exists before equal after,
    l = before ++ equal ++ after /\
    Forall (fun x => key x = Lt) before /\ Forall (fun x => key x = Eq) equal /\ Forall (fun x => key x = Gt) after /\
    equal_range_by l key = Ok (length before, (length before + length equal)%nat).
Proof.
  intros A key l S. destruct (sorted_thirds key l S) as (a & b & c & -> & Ha & Hb & Hc).
  exists a, b, c. split; [reflexivity|]. split; [exact Ha|]. split; [exact Hb|]. split; [exact Hc|].
  apply equal_range_thirds; assumption.
Qed.
(** The binary search is the linear scan used elsewhere in the model. *)
Theorem C40_partition_point : forall A (pred : A -> bool) yes no,
  Forall (fun x => pred x = true) yes -> Forall (fun x => pred x = false) no ->
  partition_point_search pred (yes ++ no) = Ok (length yes) /\ partition_point pred (yes ++ no) = length yes.
Proof.
  intros A p a b Ha Hb. split.
  - apply partition_point_finds.
    + eapply forallb_of; [|exact Ha]. auto.
    + eapply forallb_of; [|exact Hb]. cbv beta. intros x ->. reflexivity.
  - induction Ha as [|x a H _ IH]; cbn [app partition_point length].
    + destruct Hb as [|y b Hy _]; [reflexivity|]. cbn [partition_point]. rewrite Hy. reflexivity.
    + rewrite H, IH. reflexivity.
Qed.
Example equal_range_sample : equal_range_by [1; 3; 3; 3; 8] (fun x => x ?= 3) = Ok (1%nat, 4%nat).
Proof. vm_compute. reflexivity. Qed.
Example equal_range_sample_sorted : StronglySorted (fun x y => cmp_le (x ?= 3) (y ?= 3)) [1; 3; 3; 3; 8].
Proof. repeat constructor. Qed.

(** ** C41.  Case conversion. *)
Theorem C41_snake_no_uppercase : forall s c, In c (to_lower_snake_case s) -> ~ upper_letter c.
Proof.
  intros s c H. unfold to_lower_snake_case in H. rewrite snake_spec in H by apply under_lower.
  apply in_map_iff in H as (x & <- & _). apply lower_not_upper.
Qed.
Theorem C41_snake_idempotent : forall s, to_lower_snake_case (to_lower_snake_case s) = to_lower_snake_case s.
Proof.
  intros s. unfold to_lower_snake_case at 1. rewrite snake_spec by apply under_lower.
  rewrite split_no_upper.
  - unfold to_lower_snake_case. rewrite snake_spec by apply under_lower. rewrite map_map. apply map_ext. apply lower_lower.
  - apply Forall_forall. apply C41_snake_no_uppercase.
Qed.
Theorem C41_pascal_no_underscore : forall s, ~ In 95 (to_pascal_case s).
Proof. intros s. apply (pascal_no_under s true). Qed.
(** Every word between underscores is capitalised, and every text consists of
    such words. *)
Theorem C41_pascal_words : forall ws, Forall (fun w => ~ In 95 w) ws ->
  to_pascal_case (underscored ws) = concat (map capitalised ws).
Proof.
  assert (U : forall c, to_ascii_uppercase c = upper c) by reflexivity.
  assert (L : forall w rest, ~ In 95 w -> pascal_loop false (w ++ rest) = map lower w ++ pascal_loop false rest).
  { induction w as [|c w IH]; intros rest H; [reflexivity|]. cbn [app pascal_loop map]. unfold cUnder.
    destruct (c =? 95) eqn:E; [exfalso; apply H; left; lia|]. rewrite IH by (intros X; apply H; right; exact X). reflexivity. }
  assert (W : forall w rest, ~ In 95 w -> pascal_loop true (w ++ rest) = capitalised w ++ pascal_loop (match w with [] => true | _ => false end) rest).
  { intros [|c w] rest H; [reflexivity|]. cbn [app pascal_loop capitalised]. unfold cUnder.
    destruct (c =? 95) eqn:E; [exfalso; apply H; left; lia|]. rewrite L by (intros X; apply H; right; exact X). reflexivity. }
  unfold to_pascal_case. induction ws as [|w ws IH]; intros F; [reflexivity|]. apply Forall_cons_iff in F as [F1 F2].
  cbn [map concat]. rewrite <- IH by exact F2. destruct ws as [|w2 ws].
  - cbn [underscored]. rewrite <- (app_nil_r w) at 1. rewrite W by exact F1. f_equal; destruct w; reflexivity.
  - change (underscored (w :: w2 :: ws)) with (w ++ 95 :: underscored (w2 :: ws)). rewrite W by exact F1. reflexivity.
Qed.
Theorem C41_words_exist : forall s, exists ws, Forall (fun w => ~ In 95 w) ws /\ s = underscored ws.
Proof.
  induction s as [|c s IH]; [exists []; auto|]. destruct IH as (ws & F & ->).
  destruct (N.eq_dec c 95) as [-> |Hc].
  - destruct ws as [|w ws]; [exists [[]; []]; split; [repeat constructor; intros []|reflexivity]|].
    exists ([] :: w :: ws). split; [constructor; [intros []|exact F]|reflexivity].
  - destruct ws as [|w ws]; [exists [[c]]; split; [constructor; [intros [H|[]]; congruence|constructor]|reflexivity]|].
    apply Forall_cons_iff in F as [F1 F2]. exists ((c :: w) :: ws). split.
    + constructor; [intros [H|H]; [congruence|exact (F1 H)]|exact F2].
    + destruct ws; reflexivity.
Qed.
(** Nothing but case and underscores changes. *)
Theorem C41_letters_kept : forall s,
  letters (to_lower_snake_case s) = letters s /\ letters (to_upper_snake_case s) = letters s /\
  letters (to_pascal_case s) = letters s.
Proof.
  intros s. split; [|split].
  - apply snake_letters; [apply under_lower|apply lower_lower].
  - apply snake_letters; [apply under_upper|apply lower_upper].
  - apply pascal_letters.
Qed.
(** Where the underscores go. *)
Theorem C41_snake_words : forall s,
  to_lower_snake_case s = map to_ascii_lowercase (split_words None s) /\
  to_upper_snake_case s = map to_ascii_uppercase (split_words None s).
Proof. intros s. split; apply snake_spec; [apply under_lower|apply under_upper]. Qed.
Example case_samples :
  to_lower_snake_case (`"FooBar_Baz") = `"foo_bar_baz" /\ to_upper_snake_case (`"lParen") = `"L_PAREN" /\
  to_pascal_case (`"foo_BAR") = `"FooBar".
Proof. vm_compute. auto. Qed.

(** ** C42.  Markers. *)
Lemma marker_fresh a : ~ occurs CURSOR_MARKER a -> forall x y, a ++ removelast CURSOR_MARKER <> x ++ CURSOR_MARKER ++ y.
Proof.
  intros H x y E. apply H. change (removelast CURSOR_MARKER) with [36] in E. change CURSOR_MARKER with [36; 48] in *.
  destruct (@exists_last _ ([36; 48] ++ y)) as (y' & z & Ey); [discriminate|].
  rewrite Ey, app_assoc in E. apply app_inj_tail in E as [E Ez]. subst z.
  destruct y as [|w y].
  - exfalso. cbn in Ey. change [36; 48] with ([36] ++ [48]) in Ey. apply app_inj_tail in Ey as [_ Ey]. discriminate.
  - destruct (@exists_last _ (w :: y)) as (y2 & z2 & E2); [discriminate|]. rewrite E2 in Ey.
    cbn [app] in Ey. change (36 :: 48 :: y2 ++ [z2]) with ((36 :: 48 :: y2) ++ [z2]) in Ey. apply app_inj_tail in Ey as [<- _].
    exists x, y2. exact E.
Qed.
Lemma extract_first a b : tlen a < u32_bound -> ~ occurs CURSOR_MARKER a ->
  try_extract_offset (a ++ CURSOR_MARKER ++ b) = Ok (Some (tlen a, a ++ b)).
Proof.
  intros Hs H. unfold try_extract_offset.
  rewrite find_str_first; [|apply marker_fresh; exact H|discriminate].
  unfold slice_to, slice_from. rewrite split_at_app. cbn [bind].
  rewrite app_assoc. rewrite <- tlen_app. rewrite split_at_app. cbn [bind]. rewrite N.mod_small by exact Hs. reflexivity.
Qed.
Lemma extract_none t : ~ occurs CURSOR_MARKER t -> try_extract_offset t = Ok None.
Proof. intros H. unfold try_extract_offset. rewrite find_str_none; [reflexivity|]. intros a b E. apply H. exists a, b. exact E. Qed.

(** Adding a marker at any character boundary and extracting it gives back the
    offset and the text; only the part before the offset must be free of markers. *)
Theorem C42_cursor_round_trip : forall before after,
  tlen before < u32_bound -> ~ occurs CURSOR_MARKER before ->
  exists marked, add_cursor (before ++ after) (tlen before) = Ok marked /\
    extract_offset marked = Ok (tlen before, before ++ after).
Proof.
  intros a b Hs H. exists (a ++ CURSOR_MARKER ++ b). split.
  - unfold add_cursor, slice_to, slice_from. rewrite split_at_app. reflexivity.
  - unfold extract_offset. rewrite extract_first by assumption. reflexivity.
Qed.
(** An offset that is not a character boundary of the text is refused. *)
Theorem C42_add_cursor_bounds : forall t o,
  (exists m, add_cursor t o = Ok m) <-> exists before after, t = before ++ after /\ o = tlen before.
Proof.
  intros t o. unfold add_cursor, slice_to, slice_from. destruct (split_at t o) as [[a b]|] eqn:E.
  - apply split_at_spec in E as [-> <-]. split; intros _; [exists a, b; auto|cbn [bind]; eauto].
  - split; [intros [m H]; discriminate|]. intros (a & b & -> & ->). rewrite split_at_app in E. discriminate.
Qed.
(** Two markers give a range; extraction removes exactly them. *)
Theorem C42_range_round_trip : forall a b c,
  tlen a + tlen b < u32_bound -> ~ occurs CURSOR_MARKER (a ++ b) ->
  extract_range (a ++ CURSOR_MARKER ++ b ++ CURSOR_MARKER ++ c) = Ok (tlen a, tlen a + tlen b, a ++ b ++ c) /\
  extract_range_or_offset (a ++ CURSOR_MARKER ++ b ++ CURSOR_MARKER ++ c) = Ok (inl (tlen a, tlen a + tlen b), a ++ b ++ c).
Proof.
  intros a b c Hs H.
  assert (E : try_extract_range (a ++ CURSOR_MARKER ++ b ++ CURSOR_MARKER ++ c) = Ok (Some (tlen a, tlen a + tlen b, a ++ b ++ c))).
  { unfold try_extract_range. rewrite extract_first.
    - cbn [bind]. rewrite (app_assoc a b). rewrite extract_first.
      + cbn [bind]. rewrite tlen_app. replace (tlen a <=? tlen a + tlen b) with true by lia. cbn [assert_ bind].
        rewrite <- app_assoc. reflexivity.
      + rewrite tlen_app. exact Hs.
      + exact H.
    - lia.
    - intros (x & y & E). apply H. exists x, (y ++ b). rewrite E, <- !app_assoc. reflexivity. }
  unfold extract_range, extract_range_or_offset. rewrite E. split; reflexivity.
Qed.
(** One marker is an offset; none is refused. *)
Theorem C42_range_or_offset : forall a b,
  tlen a < u32_bound -> ~ occurs CURSOR_MARKER (a ++ b) ->
  extract_range_or_offset (a ++ CURSOR_MARKER ++ b) = Ok (inr (tlen a), a ++ b) /\
  extract_range_or_offset (a ++ b) = Panic PUnreachable /\ extract_offset (a ++ b) = Panic PUnreachable.
Proof.
  intros a b Hs H.
  assert (Ha : ~ occurs CURSOR_MARKER a).
  { intros (x & y & E). apply H. exists x, (y ++ b). rewrite E, <- !app_assoc. reflexivity. }
  unfold extract_range_or_offset, try_extract_range, extract_offset.
  rewrite extract_first by assumption. rewrite (extract_none (a ++ b)) by exact H. cbn [bind].
  rewrite (extract_none (a ++ b)) by exact H. cbn [bind]. auto.
Qed.
Example marker_sample : extract_range (`"fn $0main$0() {}") = Ok (3, 7, `"fn main() {}").
Proof. vm_compute. reflexivity. Qed.
Example dollar_sample : ~ occurs CURSOR_MARKER (`"$1 0$").
Proof.
  intros (a & b & E). vm_compute in E.
  destruct a as [|? [|? [|? [|? [|? [|? a]]]]]]; cbn in E; try discriminate; injection E; intros; destruct a; discriminate.
Qed.

(** ** C44.  [trim_indent]: with ASCII white space, it succeeds, and removes the
    smallest indentation of the non-blank lines from every non-blank line. *)
Theorem C44_trim_indent : forall t,
  plain_space t ->
  exists n ls rs,
    lines_with_ends (strip_first_lf t) ls /\
    trim_indent t = Ok (concat rs) /\
    Forall2 (fun l r => (~ blank l -> indented n l r) /\ (exists s, l = s ++ r /\ blank s)) ls rs /\
    (forall l, In l ls -> ~ blank l -> exists s r, l = s ++ r /\ blank s /\ n <= tlen s) /\
    ((exists l, In l ls /\ ~ blank l) -> exists l s c r, In l ls /\ l = s ++ c :: r /\ blank s /\ is_white_space c = false /\ tlen s = n).
Proof.
  intros t P. set (u := strip_first_lf t).
  assert (Pu : plain_space u).
  { unfold u, strip_first_lf. destruct t as [|c t]; [exact P|]. destruct (c =? cLF); [inversion P; auto|exact P]. }
  set (n := common_indent u). set (ls := split_inclusive u).
  pose proof (split_inclusive_concat u) as C.
  assert (Min : forall l, In l ls -> ~ blank l -> n <= line_indent l).
  { intros l Hl Nb. unfold n, common_indent. fold ls.
    destruct (min_list_spec (map line_indent (filter (fun l => negb (is_blank_line l)) ls))) as [[E _]|[_ H]].
    - exfalso. apply map_eq_nil in E. assert (X : In l (filter (fun l => negb (is_blank_line l)) ls)).
      { apply filter_In. split; [exact Hl|]. destruct (is_blank_line l) eqn:D; [apply blank_line_spec in D; tauto|reflexivity]. }
      rewrite E in X. destruct X.
    - apply H. apply in_map. apply filter_In. split; [exact Hl|].
      destruct (is_blank_line l) eqn:D; [apply blank_line_spec in D; tauto|reflexivity]. }
  assert (Pl : forall l, In l ls -> plain_space l).
  { intros l Hl. fold ls in C. rewrite <- C in Pu. clear - Pu Hl. induction ls as [|x xs IH]; [destruct Hl|].
    cbn [concat] in Pu. apply plain_app in Pu as [P1 P2]. destruct Hl as [->|Hl]; auto. }
  destruct (map_res_ok (trim_line n) (fun l r => (~ blank l -> indented n l r) /\ (exists s, l = s ++ r /\ blank s)) ls)
    as (rs & E & F).
  { intros l Hl. destruct (trim_line_ok n l (Pl l Hl) (Min l Hl)) as (r & R1 & R2 & R3 & _). eauto. }
  exists n, ls, rs. split; [apply split_inclusive_lines|]. split.
  { unfold trim_indent. fold u. fold n. fold ls. rewrite E. reflexivity. }
  split; [exact F|]. split.
  - intros l Hl Nb. destruct (line_indent_spec l) as (s & E1 & B & I). exists s, (trim_start l).
    split; [exact E1|]. split; [exact B|]. rewrite <- I. apply Min; assumption.
  - intros (l & Hl & Nb). unfold n, common_indent. fold ls.
    destruct (min_list_spec (map line_indent (filter (fun l => negb (is_blank_line l)) ls))) as [[E1 _]|[H _]].
    + exfalso. apply map_eq_nil in E1. assert (X : In l (filter (fun l => negb (is_blank_line l)) ls)).
      { apply filter_In. split; [exact Hl|]. destruct (is_blank_line l) eqn:D; [apply blank_line_spec in D; tauto|reflexivity]. }
      rewrite E1 in X. destruct X.
    + apply in_map_iff in H as (m & Hm & Hin). apply filter_In in Hin as [Hin D].
      destruct (trim_start_split m) as (s & E1 & B & W). destruct (trim_start m) as [|c r] eqn:T.
      * unfold is_blank_line in D. rewrite T in D. discriminate.
      * exists m, s, c, r. split; [exact Hin|]. split; [exact E1|]. split; [exact B|]. split; [eapply W; reflexivity|].
        rewrite <- Hm. unfold line_indent. rewrite T. rewrite E1 at 1. rewrite tlen_app. lia.
Qed.
(** Without that condition it can panic: an ideographic space in a blank line. *)
Theorem C44_wide_space_refuted : trim_indent (`" a" ++ [cLF; 0x3000; cLF]) = Panic PSlice.
Proof. vm_compute. reflexivity. Qed.
Example trim_indent_sample :
  trim_indent ([cLF] ++ `"    fn main() {" ++ [cLF; cLF] ++ `"        return 92;" ++ [cLF] ++ `"    }" ++ [cLF])
  = Ok (`"fn main() {" ++ [cLF; cLF] ++ `"    return 92;" ++ [cLF] ++ `"}" ++ [cLF]).
Proof. vm_compute. reflexivity. Qed.

(** ** C45.  [iter_eq_by]: same length and pairwise equal. *)
Theorem C45_iter_eq_by : forall A B (eq : A -> B -> bool) l m,
  iter_eq_by eq l m = true <-> length l = length m /\ forall i x y, nth_error l i = Some x -> nth_error m i = Some y -> eq x y = true.
Proof.
  intros A B eq l m. rewrite iter_eq_by_spec. split.
  - induction 1 as [|x y l m H _ [IH1 IH2]]; [split; [reflexivity|intros [|]; discriminate]|].
    split; [cbn; congruence|]. intros [|i] a b Ha Hb; cbn in *; [congruence|eauto].
  - revert m. induction l as [|x l IH]; intros [|y m] [H1 H2]; try discriminate; constructor.
    + apply (H2 0%nat); reflexivity.
    + apply IH. split; [cbn in H1; congruence|]. intros i a b Ha Hb. apply (H2 (S i)); assumption.
Qed.
Example iter_eq_by_sample : iter_eq_by N.eqb [1; 2] [1; 2] = true /\ iter_eq_by N.eqb [1; 2] [1; 2; 3] = false.
Proof. vm_compute. auto. Qed.

Print Assumptions C39_at_most_one.
Print Assumptions C39_starts_when_idle_and_requested.
Print Assumptions C39_completion.
Print Assumptions C40_equal_range.
Print Assumptions C40_partition_point.
Print Assumptions C41_snake_no_uppercase.
Print Assumptions C41_snake_idempotent.
Print Assumptions C41_pascal_no_underscore.
Print Assumptions C41_pascal_words.
Print Assumptions C41_words_exist.
Print Assumptions C41_letters_kept.
Print Assumptions C41_snake_words.
Print Assumptions C42_cursor_round_trip.
Print Assumptions C42_add_cursor_bounds.
Print Assumptions C42_range_round_trip.
Print Assumptions C42_range_or_offset.
Print Assumptions C44_trim_indent.
Print Assumptions C44_wide_space_refuted.
Print Assumptions C45_iter_eq_by.
