(** C59 and C60: tags and annotations in test texts. *)
From Coq Require Import String Permutation Sorted.
From Verif Require Import Base BaseProofs Lexer Stdx StdxSpec StdxProofs Tags TagsSpec TagsProofs AnnotProofs.
Open Scope N_scope.

(** ** C59 *)
(** Whatever document was written with tags is read back: the text without the
    tags, and for every tagged part its range and attribute, ordered by start
    and end; parts with the same range are in the order of their closing tags. *)
Theorem C59_tags_are_read : forall tag d, tag_name tag -> proper tag d -> tlen (written tag d) < u32_bound ->
  exists marks own, extract_tags (written tag d) tag = Ok (marks, shown d) /\
    parts 0 d own /\ Permutation marks own /\ Sorted before_or_at marks /\
    forall s e, filter (same_range s e) marks = filter (same_range s e) own.
Proof.
  intros tag d T P L. unfold extract_tags.
  destruct (loop_doc tag T d P [] I (S (length (written tag d))) [] [] []) as (f & Lf & E).
  { cbn. lia. }
  { pose proof (shown_shorter tag d). cbn. lia. }
  rewrite app_nil_r in E. rewrite E. destruct f as [|f]; [cbn in Lf; lia|]. rewrite loop_nil. cbn [bind assert_ app].
  exists (stable_sort mark_le (marks 0 d)), (marks 0 d). split; [reflexivity|].
  split; [apply marks_parts|]. split; [apply sort_perm|]. split; [apply sort_sorted|]. intros s e. apply sort_stable.
Qed.
Print Assumptions C59_tags_are_read.
(** The ranges are those of the tagged texts in the text without tags. *)
Theorem C59_ranges_cut_the_tagged_text : forall tag d, tag_name tag -> proper tag d -> tlen (written tag d) < u32_bound ->
  exists marks, extract_tags (written tag d) tag = Ok (marks, shown d) /\
    forall s e v, In (s, e, v) marks <->
      exists a w c, part_of d a w c v /\ shown d = a ++ w ++ c /\ s = tlen a /\ e = tlen (a ++ w).
Proof.
  intros tag d T P L. destruct (C59_tags_are_read tag d T P L) as (marks & own & E & O & Pm & _).
  exists marks. split; [exact E|]. intros s e v.
  assert (In (s, e, v) marks <-> In (s, e, v) own) as ->.
  { split; apply Permutation_in; [exact Pm|symmetry; exact Pm]. }
  rewrite (parts_cut _ _ _ _ _ _ O). split; intros (a & w & c & H & H1).
  - exists a, w, c. split; [exact H|]. split; [eapply part_shown; exact H|]. rewrite tlen_app. lia.
  - exists a, w, c. destruct H1 as (_ & -> & ->). split; [exact H|]. rewrite tlen_app. lia.
Qed.
Print Assumptions C59_ranges_cut_the_tagged_text.
(** It succeeds for the documents with properly nested tags only. *)
Theorem C59_only_nested_tags : forall tag t, tag_name tag -> tlen t < u32_bound ->
  ((exists r, extract_tags t tag = Ok r) <-> exists d, proper tag d /\ t = written tag d) /\
  extract_tags t tag <> Fuel.
Proof.
  intros tag t T L. split; [split|].
  - intros [[marks out] H]. unfold extract_tags in H. apply bind_ok in H as ([[rs o] st] & H & H2).
    apply bind_ok in H2 as (u & A & _). destruct st; [|discriminate].
    apply (loop_only tag T) in H as (d & ds & Ld & P & _ & ->). destruct ds; [|discriminate]. exists d. auto.
  - intros (d & P & ->). destruct (C59_tags_are_read tag d T P L) as (marks & own & E & _). eauto.
  - unfold extract_tags. intros H. pose proof (loop_fuel tag T (S (length t)) t [] [] [] ltac:(lia)) as F.
    destruct (tags_loop _ _ _ _ _ _) as [[[rs o] st]| |]; [|discriminate|congruence]. cbn [bind] in H. destruct st; discriminate.
Qed.
Print Assumptions C59_only_nested_tags.

Definition tag_sample : doc := Tagged [] (`" fn") (Tagged (`"fn < ") [] (Plain (`"main")) (Plain (`"() {}"))) (Plain (`" <x")).
Example tag_sample_ok : tag_name (`"tag") /\ proper (`"tag") tag_sample /\ tlen (written (`"tag") tag_sample) < u32_bound /\
  written (`"tag") tag_sample = `"<tag fn>fn < <tag>main</tag>() {}</tag> <x" /\
  part_of tag_sample (`"fn < ") (`"main") (`"() {} <x") None.
Proof.
  assert (F : forall t, find_str ([60] ++ `"tag") t = None /\ find_str ([60; 47] ++ `"tag" ++ [62]) t = None ->
    ~ occurs ([60] ++ `"tag") t /\ ~ occurs ([60; 47] ++ `"tag" ++ [62]) t).
  { assert (G : forall p t, find_str p t = None -> ~ occurs p t).
    { intros p t. induction t as [|c t IH]; intros H (a & b & E).
      - destruct a, p; discriminate.
      - cbn [find_str] in H. destruct (starts_with (c :: t) p) eqn:S; [discriminate|].
        destruct (find_str p t) eqn:Ft; [discriminate|]. destruct a as [|x a].
        + assert (starts_with (c :: t) p = true) by (apply starts_with_spec; exists b; exact E). congruence.
        + injection E as _ ->. apply (IH eq_refl). exists a, b. reflexivity. }
    intros t [H1 H2]. split; apply G; assumption. }
  split; [|split; [|split; [|split]]].
  - split; [|split]; [intros H; repeat destruct H as [H|H]; try discriminate; exact H..|cbn; discriminate].
  - cbn [proper tag_sample]. repeat split; try (apply F; split; reflexivity); try apply (F (`"main")); try (split; reflexivity);
      intros H; repeat destruct H as [H|H]; try discriminate; exact H.
  - reflexivity.
  - reflexivity.
  - exact (part_inside [] (`" fn") (Tagged (`"fn < ") [] (Plain (`"main")) (Plain (`"() {}"))) (Plain (`" <x"))
             (`"fn < ") (`"main") (`"() {}") None (part_here _ [] _ (Plain (`"() {}")) None (Forall_nil _))).
Qed.
(** A tag whose name only starts with the tag asked for counts as one, with the rest as attribute. *)
Theorem C59_longer_names_refuted : exists t, extract_tags t (`"tag") = Ok ([(0, 1, Some (`"ged"))], `"x") /\ t = `"<tagged>x</tag>".
Proof. eexists. split; [|reflexivity]. reflexivity. Qed.

(** ** C60 *)
Lemma split_one l : l <> [] -> ~ In cLF l -> split_inclusive l = [l].
Proof.
  induction l as [|c l IH]; [congruence|]. intros _ H. cbn [split_inclusive].
  replace (c =? cLF) with false by (symmetry; apply N.eqb_neq; intros ->; apply H; left; reflexivity).
  destruct l as [|d l]; [reflexivity|]. rewrite IH; [reflexivity|discriminate|intros I; apply H; right; exact I].
Qed.
Lemma split_line l r : ~ In cLF l -> split_inclusive (l ++ cLF :: r) = (l ++ [cLF]) :: split_inclusive r.
Proof.
  induction l as [|c l IH]; intros H; [reflexivity|]. cbn [app split_inclusive].
  replace (c =? cLF) with false by (symmetry; apply N.eqb_neq; intros ->; apply H; left; reflexivity).
  rewrite IH by (intros I; apply H; right; exact I). reflexivity.
Qed.
Lemma line_body l0 : is_line (l0 ++ [cLF]) -> ~ In cLF l0.
Proof.
  intros [_ H] I. apply in_split in I as (a & b & ->). specialize (H a (b ++ [cLF])).
  rewrite <- app_assoc in H. specialize (H eq_refl). destruct b; discriminate.
Qed.
Lemma lines_unique ls : forall t, lines_with_ends t ls -> ls = split_inclusive t.
Proof.
  induction ls as [|l ls IH]; intros t (<- & F & H); [reflexivity|]. inversion F as [|? ? Hl F']; subst. cbn [concat].
  assert (IH' : ls = split_inclusive (concat ls)).
  { apply IH. split; [reflexivity|]. split; [exact F'|]. intros a l' b E. apply (H (l :: a) l' b). rewrite E. reflexivity. }
  destruct ls as [|l2 ls].
  - cbn [concat]. rewrite app_nil_r. destruct (in_dec N.eq_dec cLF l) as [I|I].
    + apply in_split in I as (a & b & E). assert (b = []) as -> by exact (proj2 Hl a b E). subst l.
      rewrite split_line by (apply line_body; exact Hl). reflexivity.
    + rewrite split_one; [reflexivity|exact (proj1 Hl)|exact I].
  - destruct (H [] l (l2 :: ls) eq_refl ltac:(discriminate)) as [l0 ->].
    rewrite <- app_assoc. cbn [app]. rewrite split_line by (apply line_body; exact Hl). f_equal. exact IH'.
Qed.
(** The annotations of a text are exactly those it says: the notes of each run
    of carets, about the columns it covers in the last earlier line that is long
    enough, in order, with the bars of the next line added; if a run is about no
    line, or a bar continues nothing, there is no result. *)
Theorem C60_annotations_are_read : forall t ls r, tlen t < u32_bound -> lines_with_ends t ls ->
  (extract_annotations t = Ok r <-> annotated (tlen t) ls 0 [] [] r).
Proof.
  intros t ls r L W. apply lines_unique in W. subst ls. unfold extract_annotations, text_size_of.
  replace (tlen t <? u32_bound) with true by lia. cbn [bind].
  pose proof (loop_main (tlen t) (split_inclusive t) [] 0 [] [] [] r map_ok_nil (NoDup_nil _)) as K.
  cbn [prevs map app length seq combine] in K. rewrite K. split.
  - intros (bs & r' & _ & A & ->). exact A.
  - intros A. destruct (next_bars_exist (split_inclusive t)) as [bs B]. exists bs, r. auto.
Qed.
Print Assumptions C60_annotations_are_read.
Lemma runs_order o t rs : runs o t rs -> Forall (fun c => fst (fst c) <= snd (fst c)) rs.
Proof. induction 1; constructor; cbn; auto. lia. Qed.
Lemma annotated_bounds size ls start done ends r : annotated size ls start done ends r ->
  start + tlen (concat ls) <= size -> Forall (fun l => fst l + snd l <= size) done ->
  Forall (fun n => fst (fst n) <= snd (fst n) <= size) r.
Proof.
  induction 1 as [|l ls start done ends r Hn A IH|l ls start done ends r code comment rs bs own C I R B O A IH|l ls start done ends r code comment bs C I B F A IH];
    intros L D; cbn [concat] in *; rewrite ?tlen_app in L.
  - constructor.
  - apply IH; [lia|]. constructor; [cbn; lia|exact D].
  - assert (Lc : tlen code <= tlen l) by (destruct C as [-> _]; rewrite tlen_app; lia).
    apply Forall_app. split; [|apply IH; [lia|constructor; [cbn; lia|exact D]]].
    pose proof (runs_order _ _ _ R) as Ro. clear -O Ro D L.
    induction O as [|c n rs own (v & N & _) O IH]; [constructor|]. inversion Ro; subst. constructor; [|auto].
    destruct n as [rg w]. cbn in N |- *. inversion N as [s e content v' T|s e content v' at_ Nf T (newer & len & older & -> & Hlen & _)]; subst; cbn in *.
    + lia.
    + apply Forall_app in D as [_ D]. inversion D as [|? ? X]; subst. cbn in X. lia.
  - assert (Lc : tlen code <= tlen l) by (destruct C as [-> _]; rewrite tlen_app; lia).
    apply IH; [lia|]. constructor; [cbn; lia|exact D].
Qed.
(** The ranges lie in the text. *)
Theorem C60_ranges_lie_in_the_text : forall t r s e v, tlen t < u32_bound ->
  extract_annotations t = Ok r -> In (s, e, v) r -> s <= e /\ e <= tlen t.
Proof.
  intros t r s e v L H I. apply (C60_annotations_are_read t _ r L (split_inclusive_lines t)) in H.
  apply annotated_bounds in H.
  - rewrite Forall_forall in H. specialize (H _ I). exact H.
  - rewrite split_inclusive_concat. lia.
  - constructor.
Qed.
Print Assumptions C60_ranges_lie_in_the_text.
(** The scan always ends. *)
Theorem C60_scan_ends : forall t, extract_annotations t <> Fuel.
Proof.
  intros t. unfold extract_annotations, text_size_of. destruct (tlen t <? u32_bound); [|discriminate]. cbn [bind].
  generalize (split_inclusive t) (@nil (N * N)) 0 (@nil (N * nat)) (@nil (N * N * text)). intros ls. generalize (tlen t). intros size.
  assert (LL : forall anns off m prev res_ this, line_loop size off m prev anns res_ this <> Fuel).
  { induction anns as [|[s e c [|]|o c] anns IH]; intros; cbn [line_loop]; [discriminate|apply IH| |].
    - destruct (first_from _ _); cbn; [apply IH|discriminate].
    - destruct (find _ _); cbn; [apply IH|discriminate]. }
  assert (EL : forall c, exists anns, extract_line_annotations c = Ok anns).
  { intros c. unfold extract_line_annotations. destruct (existsb (N.eqb cCaret) c) eqn:X.
    - destruct (runs_exist (length c) c (0 + 0) (le_n _)) as [rs R].
      destruct (runs_loop 0 0 c rs R (S (length c)) ltac:(lia)) as (anns & E & _). eauto.
    - destruct (bars_exist (length c) c (0 + 0) (le_n _)) as [bs B].
      destruct (bars_loop 0 0 c bs B ltac:(rewrite <- existsb_caret; congruence) (S (length c)) ltac:(lia)) as (anns & E & _). eauto. }
  induction ls as [|l ls IH]; intros m st prev res_; cbn [annotations_loop]; [discriminate|].
  destruct (find_split slashes l) as [[code comment]|]; cbn [bind]; [|apply IH].
  destruct (EL comment) as [anns ->]. cbn [bind].
  pose proof (LL anns (tlen code + 2) m prev res_ []) as K. destruct (line_loop _ _ _ _ _ _ _) as [[? ?]| |]; cbn [bind]; [apply IH|discriminate|congruence].
Qed.
Print Assumptions C60_scan_ends.
(** A text with overlapping annotations, and one with a continuation; the second
    annotation of the first is about the line before the first one. *)
Example annotation_sample :
  extract_annotations (lf [`"let xy = f(1);"; `"  //^^ a"; `"//       ^^^^ call"; `"//          | of f"]) =
  Ok [((4, 6), `"a"); ((9, 13), `"call" ++ [cLF] ++ `"of f" ++ [cLF])].
Proof. vm_compute. reflexivity. Qed.
(** The documentation promises values of several lines, but a second
    continuation line is refused: only the line right above is looked at. *)
Definition two_lines : text := lf [`"ab"; `"//^ one"; `"//| two"].
Definition three_lines : text := lf [`"ab"; `"//^ one"; `"//| two"; `"//| three"].
Theorem C60_many_lines_refuted :
  extract_annotations three_lines = Panic PUnwrap /\ extract_annotations two_lines = Ok [((2, 3), `"one" ++ [cLF] ++ `"two" ++ [cLF])].
Proof. split; vm_compute; reflexivity. Qed.
