(** Properties C01-C08 and C37: positions, line endings, document edits.
    Specifications: TextSpec.v and DocChangesSpec.v. *)
From Coq Require Import String.
From Verif Require Import Base BaseProofs Utf8 Utf8Proofs TextSpec LineIndex LineIndexProofs
  LineEndings LineEndingsProofs DocChanges DocChangesSpec DocChangesProofs.
Local Open Scope N_scope.

Lemma li_new_ok t li : li_new t = Ok li -> li = li_build t /\ tlen t < u32_bound.
Proof.
  unfold li_new. destruct (tlen t <? u32_bound) eqn:E; [|discriminate].
  intros H; injection H as <-. split; [auto|lia].
Qed.

(** C01.  Any u32 offset, also past the end. *)
Theorem C01_offset_line_col_roundtrip : forall t li o,
  li_new t = Ok li -> o < u32_bound ->
  exists p, li_line_col li o = Ok p /\ li_offset li p = Ok o.
Proof.
  intros t li o H Ho. apply li_new_ok in H as [-> Ht]. exact (line_col_offset t o Ht Ho).
Qed.
(** The index exists for every text shorter than 4 GiB. *)
Theorem C01_index_exists : forall t, tlen t < u32_bound -> exists li, li_new t = Ok li.
Proof. intros t H. exists (li_build t). unfold li_new. apply N.ltb_lt in H. now rewrite H. Qed.

(** C02.  [pre] is the part of the text before the offset. *)
Theorem C02_line_col_counts_newlines : forall pre post li,
  li_new (pre ++ post) = Ok li ->
  li_line_col li (tlen pre) = Ok {| lc_line := count_lf pre; lc_col := tlen (last_line pre) |}.
Proof.
  intros pre post li H. apply li_new_ok in H as [-> _].
  rewrite (line_col_prefix _ pre) by apply prefix_before_split. do 2 f_equal. lia.
Qed.
(** C02, offsets that do not fall on a character boundary or lie past the end:
    [pre] is the longest run of whole characters that ends at or before [o]. *)
Theorem C02_line_col_any_offset : forall t li pre post o,
  li_new t = Ok li -> t = pre ++ post -> tlen pre <= o ->
  (post = [] \/ exists c r, post = c :: r /\ o < tlen pre + utf8_len c) ->
  li_line_col li o = Ok {| lc_line := count_lf pre; lc_col := o - tlen pre + tlen (last_line pre) |}.
Proof.
  intros t li pre post o H Ht Hl Hp. apply li_new_ok in H as [-> _].
  apply line_col_prefix. exists post. auto.
Qed.

(** C03 *)
Theorem C03_utf16_columns : forall pre post li,
  li_new (pre ++ post) = Ok li ->
  li_to_utf16 li {| lc_line := count_lf pre; lc_col := tlen (last_line pre) |}
    = Ok {| lc_line := count_lf pre; lc_col := tlen16 (last_line pre) |} /\
  li_to_utf8 li {| lc_line := count_lf pre; lc_col := tlen16 (last_line pre) |}
    = Ok {| lc_line := count_lf pre; lc_col := tlen (last_line pre) |}.
Proof.
  intros pre post li H. apply li_new_ok in H as [-> H]. split; [apply to_utf16_spec|].
  apply to_utf8_spec. rewrite tlen_app in H. lia.
Qed.

(** C04 *)
Theorem C04_lines_split_at_line_starts : forall t li s e,
  li_new t = Ok li -> s <= e ->
  exists rs, li_lines li s e = Ok rs /\ tiles s rs e /\
    forall x, s < x < e -> (In x (map fst rs) <-> line_start_at t x).
Proof. intros t li s e H. apply li_new_ok in H as [-> _]. exact (lines_tiles t s e). Qed.

(** C05 *)
Theorem C05_normalize_replaces_crlf : forall t,
  scalars t -> exists e, normalize t = Ok (crlf_to_lf t, e) /\ (e = Dos <-> In cCR t).
Proof.
  intros t H. eexists; split; [apply normalize_spec; auto|].
  unfold has_cr. destruct (existsb (fun c => c =? cCR) t) eqn:E.
  - apply existsb_exists in E as [c [Hc E]]. apply N.eqb_eq in E as ->. tauto.
  - split; [discriminate|]. intros Hin. assert (existsb (fun c => c =? cCR) t = true); [|congruence].
    apply existsb_exists. exists cCR. split; auto.
Qed.
(** A CR LF is left exactly where the text had CR CR LF, and normalising again
    changes the result exactly then. *)
Theorem C05_crlf_left_iff : forall t t' e,
  scalars t -> normalize t = Ok (t', e) ->
  ((exists a b, t' = a ++ cCR :: cLF :: b) <-> (exists a b, t = a ++ cCR :: cCR :: cLF :: b)).
Proof. intros t t' e H E. rewrite (normalize_spec _ H) in E. injection E as <- _. apply crlf_left. Qed.
Theorem C05_normalize_again : forall t t' e,
  scalars t -> normalize t = Ok (t', e) ->
  exists t'' e', normalize t' = Ok (t'', e') /\
    (t'' = t' <-> ~ exists a b, t = a ++ cCR :: cCR :: cLF :: b).
Proof.
  intros t t' e H E. rewrite (normalize_spec _ H) in E. injection E as <- _.
  eexists _, _. split; [apply normalize_spec, crlf_scalars, H|]. rewrite crlf_fixed, crlf_left. reflexivity.
Qed.
(** The documented invariant "no CR LF in a normalised text" is false, and so
    is idempotence: "\r\r\n" becomes "\r\n". *)
Theorem C05_normalized_text_has_no_crlf_refuted :
  exists t t' e a b, scalars t /\ normalize t = Ok (t', e) /\ t' = a ++ cCR :: cLF :: b.
Proof.
  exists [cCR; cCR; cLF], [cCR; cLF], Dos, [], [].
  split; [repeat constructor; vm_compute; reflexivity|]. split; [vm_compute; reflexivity|reflexivity].
Qed.
Theorem C05_normalize_idempotent_refuted :
  exists t t1 t2 e1 e2, scalars t /\ normalize t = Ok (t1, e1) /\ normalize t1 = Ok (t2, e2) /\ t1 <> t2.
Proof.
  exists [cCR; cCR; cLF], [cCR; cLF], [cLF], Dos, Dos.
  split; [repeat constructor; vm_compute; reflexivity|].
  split; [vm_compute; reflexivity|]. split; [vm_compute; reflexivity|discriminate].
Qed.

(** C06 *)
Theorem C06_batch_equals_single_edits : forall t chs,
  batch_size t chs < u32_bound -> Forall ordered_lines chs ->
  apply_document_changes t chs = apply_all_fresh t chs.
Proof. exact apply_changes_fresh. Qed.
(** Without the condition on the ranges it is false: a range that ends on a
    line before the one it starts on is read with positions of lines that an
    earlier change of the batch has moved. *)
Theorem C06_any_ranges_refuted : exists t chs,
  batch_size t chs < u32_bound /\ apply_document_changes t chs <> apply_all_fresh t chs.
Proof.
  exists [97; 10; 98; 10; 99],
    [{| ch_range := Some {| r_start := {| p_line := 1; p_char := 0 |}; r_end := {| p_line := 1; p_char := 0 |} |}; ch_text := [120; 120; 10] |};
     {| ch_range := Some {| r_start := {| p_line := 2; p_char := 0 |}; r_end := {| p_line := 0; p_char := 6 |} |}; ch_text := [] |}].
  split; [vm_compute; reflexivity|]. vm_compute. discriminate.
Qed.

(** C07 *)
Theorem C07_client_edits_are_applied : forall t chs t',
  batch_size t chs < u32_bound -> client_edits t chs t' -> apply_document_changes t chs = Ok t'.
Proof. exact client_edits_applied. Qed.

(** C08 *)
Definition main_edit (c : completion) : list lrange :=
  match c_text_edit c with
  | Some (CEdit r) => [r]
  | Some (CInsertReplace _ replace) => [replace]
  | None => []
  end.
Definition nested (c : completion) : Prop :=
  match c_text_edit c with
  | Some (CInsertReplace insert replace) =>
      r_start insert = r_start replace /\ well_formed insert /\ pos_leb (r_end insert) (r_end replace) = true
  | _ => True
  end.
Definition all_edits (c : completion) (additional : list lrange) : list lrange :=
  main_edit c ++ (match c_additional c with Some l => l | None => [] end) ++ additional.

Lemma pos_eqb_eq a b : pos_eqb a b = true <-> a = b.
Proof.
  unfold pos_eqb. destruct a, b; cbn. rewrite andb_true_iff, !N.eqb_eq. split.
  - intros [-> ->]; auto.
  - intros H; injection H as -> ->; auto.
Qed.

Theorem C08_disjointness_check_exact : forall c additional,
  (forall r, In r (all_edits c additional) -> well_formed r) ->
  (all_edits_are_disjoint c additional = true <->
   nested c /\ pairwise_disjoint (all_edits c additional)).
Proof.
  intros c additional Hwf. unfold all_edits_are_disjoint, all_edits, main_edit, nested in *.
  destruct (c_text_edit c) as [[r|ins rep]|].
  - cbn [app] in *. rewrite adjacent_sort_iff by auto. tauto.
  - cbn [app] in *. unfold well_formed at 1.
    destruct (pos_eqb (r_start rep) (r_start ins)) eqn:E1; cbn [negb orb].
    2:{ split; [discriminate|]. intros [[H _] _]. rewrite (proj2 (pos_eqb_eq _ _)) in E1 by auto. discriminate. }
    destruct (pos_leb (r_start ins) (r_end ins)) eqn:E2; cbn [negb orb].
    2:{ split; [discriminate|]. intros [[_ [H _]] _]. congruence. }
    destruct (pos_leb (r_end ins) (r_end rep)) eqn:E3; cbn [negb].
    2:{ split; [discriminate|]. intros [[_ [_ H]] _]. congruence. }
    apply pos_eqb_eq in E1. rewrite adjacent_sort_iff by auto. split; [intros H; split; [split; [auto|split; auto]|exact H]|intros [_ H]; exact H].
  - cbn [app] in *. rewrite adjacent_sort_iff by auto. tauto.
Qed.

(** C37 *)
Theorem C37_to_proto_from_proto_inverse : forall enc pre post li,
  li_new (pre ++ post) = Ok li ->
  exists p, tp_position enc li (tlen pre) = Ok p /\ fp_offset enc li p = Ok (tlen pre).
Proof.
  intros enc pre post li H. apply li_new_ok in H as [-> H]. exists (spec_position enc pre).
  split; [apply tp_position_spec|]. apply fp_offset_spec. rewrite tlen_app in H. lia.
Qed.
(** A range between two boundaries goes out and comes back unchanged. *)
Theorem C37_ranges_roundtrip : forall enc a b c li,
  li_new (a ++ b ++ c) = Ok li ->
  exists r, tp_range enc li (tlen a) (tlen (a ++ b)) = Ok r /\
            fp_text_range enc li r = Ok (tlen a, tlen (a ++ b)).
Proof.
  intros enc a b c li H. apply li_new_ok in H as [-> H].
  exists {| r_start := spec_position enc a; r_end := spec_position enc (a ++ b) |}.
  unfold tp_range, fp_text_range. cbn [r_start r_end].
  rewrite tp_position_spec, fp_offset_spec by (rewrite tlen_app in H; lia). cbn [bind].
  rewrite app_assoc in *. rewrite tp_position_spec, fp_offset_spec by (rewrite tlen_app in H; lia).
  cbn [bind]. split; auto. rewrite tlen_app. destruct (_ <=? _) eqn:E; [auto|lia].
Qed.

(** ** Concrete cases *)
(* "aé" newline "𝄞b" *)
Definition sample : text := [97; 233; 10; 119070; 98].
Example sample_index : exists li, li_new sample = Ok li /\
  li_line_col li 8 = Ok {| lc_line := 1; lc_col := 4 |} /\
  li_to_utf16 li {| lc_line := 1; lc_col := 4 |} = Ok {| lc_line := 1; lc_col := 2 |} /\
  li_lines li 1 9 = Ok [(1, 4); (4, 9)].
Proof. eexists; split; [vm_compute; reflexivity|]. repeat split; vm_compute; reflexivity. Qed.
Example sample_normalize : scalars [97; 13; 10; 13; 98] /\
  normalize [97; 13; 10; 13; 98] = Ok ([97; 10; 13; 98], Dos).
Proof. split; [repeat constructor; vm_compute; reflexivity|vm_compute; reflexivity]. Qed.
(* two edits: replace the clef by "xy" and then delete the first line break *)
Definition sample_edits : list change :=
  [ {| ch_range := Some {| r_start := {| p_line := 1; p_char := 0 |}; r_end := {| p_line := 1; p_char := 2 |} |};
       ch_text := `"xy" |};
    {| ch_range := Some {| r_start := {| p_line := 0; p_char := 2 |}; r_end := {| p_line := 1; p_char := 0 |} |};
       ch_text := [] |} ].
Example sample_edits_ok :
  batch_size sample sample_edits < u32_bound /\ Forall ordered_lines sample_edits /\
  client_edits sample sample_edits [97; 233; 120; 121; 98] /\
  apply_document_changes sample sample_edits = Ok [97; 233; 120; 121; 98].
Proof.
  split; [vm_compute; reflexivity|]. split; [repeat constructor; vm_compute; discriminate|].
  split; [|vm_compute; reflexivity].
  eapply edits_cons; [exact (edit_range [97; 233; 10] [119070] [98] [120; 121])|].
  eapply edits_cons; [exact (edit_range [97; 233] [10] [120; 121; 98] [])|]. constructor.
Qed.
Definition rg a b c d := {| r_start := {| p_line := a; p_char := b |}; r_end := {| p_line := c; p_char := d |} |}.
Example sample_disjoint :
  let c := {| c_text_edit := Some (CInsertReplace (rg 3 1 3 4) (rg 3 1 3 6));
              c_additional := Some [rg 5 0 6 2; rg 0 0 0 0] |} in
  (forall r, In r (all_edits c [rg 6 2 7 0]) -> well_formed r) /\
  all_edits_are_disjoint c [rg 6 2 7 0] = true /\ all_edits_are_disjoint c [rg 6 1 7 0] = false.
Proof.
  cbn. split; [|split; vm_compute; reflexivity].
  intros r H. repeat (destruct H as [<-|H]; [vm_compute; reflexivity|]). destruct H.
Qed.

Print Assumptions C01_offset_line_col_roundtrip.
Print Assumptions C01_index_exists.
Print Assumptions C02_line_col_counts_newlines.
Print Assumptions C02_line_col_any_offset.
Print Assumptions C03_utf16_columns.
Print Assumptions C04_lines_split_at_line_starts.
Print Assumptions C05_normalize_replaces_crlf.
Print Assumptions C05_crlf_left_iff.
Print Assumptions C05_normalize_again.
Print Assumptions C05_normalized_text_has_no_crlf_refuted.
Print Assumptions C05_normalize_idempotent_refuted.
Print Assumptions C06_batch_equals_single_edits.
Print Assumptions C06_any_ranges_refuted.
Print Assumptions C07_client_edits_are_applied.
Print Assumptions C08_disjointness_check_exact.
Print Assumptions C37_to_proto_from_proto_inverse.
Print Assumptions C37_ranges_roundtrip.
