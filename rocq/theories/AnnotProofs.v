(** Annotations: the scan with the map of line lengths gives what the text says. *)
From Verif Require Import Base BaseProofs Lexer Stdx StdxSpec Tags TagsSpec TagsProofs.
Open Scope N_scope.

(** ** Cutting lines *)
Lemma cut_none c t : cut_at c t = None <-> ~ In c t.
Proof.
  induction t as [|x t IH]; cbn [cut_at In]; [split; [intros _ []|reflexivity]|].
  destruct (x =? c) eqn:E.
  - apply N.eqb_eq in E. split; [intros X; discriminate X|]. intros H. exfalso. apply H. auto.
  - apply N.eqb_neq in E. destruct (cut_at c t) as [[a b]|].
    + split; [intros X; discriminate X|]. intros H. destruct IH as [_ IH].
      assert (X : Some (a, b) = None) by (apply IH; tauto). discriminate X.
    + split; [|reflexivity]. intros _. destruct IH as [IH _]. specialize (IH eq_refl). tauto.
Qed.
Lemma cut_some c a b : ~ In c a -> cut_at c (a ++ c :: b) = Some (a, c :: b).
Proof.
  induction a as [|x a IH]; intros H; cbn [app cut_at].
  - rewrite N.eqb_refl. reflexivity.
  - destruct (x =? c) eqn:E; [apply N.eqb_eq in E; subst; exfalso; apply H; left; reflexivity|].
    rewrite IH by (intros I; apply H; right; exact I). reflexivity.
Qed.
Lemma cut_exists (c : N) t : In c t -> exists a b, t = a ++ c :: b /\ ~ In c a.
Proof.
  induction t as [|x t IH]; [intros []|]. destruct (N.eq_dec x c) as [->|N].
  - intros _. exists [], t. split; [reflexivity|intros []].
  - intros [I|I]; [congruence|]. destruct (IH I) as (a & b & -> & H). exists (x :: a), b.
    split; [reflexivity|]. intros [J|J]; [congruence|exact (H J)].
Qed.
Lemma cut_unique (c : N) a b a' b' : ~ In c a -> ~ In c a' -> a ++ c :: b = a' ++ c :: b' -> a = a' /\ b = b'.
Proof.
  intros H H' E. pose proof (cut_some c a b H) as C. rewrite E in C. rewrite (cut_some c a' b' H') in C.
  injection C as -> ->. auto.
Qed.
Lemma carets_repeat n r : match r with c :: _ => c <> cCaret | [] => True end ->
  carets (repeat cCaret n ++ r) = (repeat cCaret n, r).
Proof.
  intros H. induction n as [|n IH]; cbn [repeat app].
  - destruct r as [|c r]; [reflexivity|]. cbn [carets]. replace (c =? cCaret) with false by (symmetry; apply N.eqb_neq; exact H). reflexivity.
  - cbn [carets]. rewrite N.eqb_refl, IH. reflexivity.
Qed.
Lemma repeat_exists t : exists n r, t = repeat cCaret n ++ r /\ match r with c :: _ => c <> cCaret | [] => True end.
Proof.
  induction t as [|c t (n & r & -> & H)]; [exists O, []; auto|]. destruct (N.eq_dec c cCaret) as [->|N].
  - exists (S n), r. auto.
  - exists O, (c :: repeat cCaret n ++ r). auto.
Qed.
Lemma repeat_len n : tlen (repeat cCaret n) = N.of_nat n.
Proof. induction n; [reflexivity|]. cbn [repeat tlen]. rewrite IHn. change (utf8_len cCaret) with 1. lia. Qed.

Lemma find_split_some code comment : ~ occurs slashes (code ++ [47]) ->
  find_split slashes (code ++ slashes ++ comment) = Some (code, comment).
Proof.
  induction code as [|c code IH]; intros H; [destruct comment; reflexivity|].
  change (find_split slashes ((c :: code) ++ slashes ++ comment)) with
    (if starts_with (c :: code ++ slashes ++ comment) slashes then Some ([], skipn 2 (c :: code ++ slashes ++ comment)) else
     match find_split slashes (code ++ slashes ++ comment) with Some (a, b) => Some (c :: a, b) | None => None end).
  rewrite IH.
  - destruct (starts_with _ slashes) eqn:E; [|reflexivity]. exfalso. apply H.
    apply starts_with_spec in E as [r E]. injection E as -> E. destruct code as [|d code].
    + exists [], []. reflexivity.
    + injection E as -> E. exists [], (code ++ [47]). reflexivity.
  - intros (a & b & E). apply H. exists (c :: a), b. cbn. rewrite E. reflexivity.
Qed.
Lemma find_split_none l : find_split slashes l = None <-> ~ occurs slashes l.
Proof.
  induction l as [|c l IH].
  - split; [intros _ (a & b & E); destruct a; discriminate|reflexivity].
  - change (find_split slashes (c :: l)) with (if starts_with (c :: l) slashes then Some ([], skipn 2 (c :: l)) else
     match find_split slashes l with Some (a, b) => Some (c :: a, b) | None => None end).
    destruct (starts_with (c :: l) slashes) eqn:E.
    + apply starts_with_spec in E as [r E]. split; [discriminate|]. intros H. exfalso. apply H. exists [], r. exact E.
    + destruct (find_split slashes l) as [[a b]|].
      * split; [discriminate|]. intros H. destruct IH as [_ IH].
        assert (X : Some (a, b) = None) by (apply IH; intros (x & y & ->); apply H; exists (c :: x), y; reflexivity). discriminate X.
      * split; [|reflexivity]. intros _ O. apply occurs_cons in O as [[r R]|O].
        -- assert (T : starts_with (c :: l) slashes = true) by (apply starts_with_spec; eauto). congruence.
        -- destruct IH as [IH _]. exact (IH eq_refl O).
Qed.
Lemma find_split_inv l code comment : find_split slashes l = Some (code, comment) -> commented l code comment.
Proof.
  revert code comment. induction l as [|c l IH]; intros code comment; [discriminate|].
  change (find_split slashes (c :: l)) with (if starts_with (c :: l) slashes then Some ([], skipn 2 (c :: l)) else
     match find_split slashes l with Some (a, b) => Some (c :: a, b) | None => None end).
  destruct (starts_with (c :: l) slashes) eqn:E.
  - apply starts_with_spec in E as [r E]. rewrite E. intros [= <- <-]. split; [reflexivity|].
    intros (a & b & X). destruct a as [|? [|? [|]]]; cbn in X; try discriminate X.
  - destruct (find_split slashes l) as [[a b]|] eqn:F; [|discriminate]. intros [= <- <-].
    destruct (IH a b eq_refl) as [-> H]. split; [reflexivity|]. intros O.
    change ((c :: a) ++ [47]) with (c :: (a ++ [47])) in O. apply occurs_cons in O as [[r R]|O]; [|exact (H O)].
    assert (T : starts_with (c :: a ++ slashes ++ b) slashes = true); [|congruence].
    apply starts_with_spec. injection R as -> R. destruct a as [|d a]; [eexists; reflexivity|]. injection R as -> R. eexists. reflexivity.
Qed.
Lemma commented_fun l code comment : commented l code comment -> find_split slashes l = Some (code, comment).
Proof. intros [-> H]. apply find_split_some. exact H. Qed.

(** ** The runs and the bars of a comment *)
Definition shifted (off : N) (a : line_annotation) : line_annotation :=
  match a with
  | Annotation s e c f => Annotation (s + off) (e + off) c f
  | Continuation o c => Continuation (o + off) c
  end.
Definition is_file (content : text) : bool := starts_with content file_word.
Definition label (content : text) : text := trim (if is_file content then skipn 4 content else content).
Definition of_run (c : N * N * text) : line_annotation :=
  let '(s, e, content) := c in Annotation s e (label content) (is_file content).
Definition of_bar (b : N * text) : line_annotation := Continuation (fst b) (trim (snd b)).

Lemma runs_loop off o t rs : runs (o + off) t rs -> forall f, (length t < f)%nat ->
  exists anns, line_annotations_loop f cCaret t o = Ok anns /\ map (shifted off) anns = map of_run rs.
Proof.
  intros R. remember (o + off) as o' eqn:Eo. revert o Eo. induction R as [o' t H|o' lead n content rest l H1 Hn H2 Hr R IH]; intros o -> f L.
  - destruct f as [|f]; [lia|]. cbn [line_annotations_loop]. rewrite (proj2 (cut_none _ _) H). exists []. auto.
  - destruct f as [|f]; [lia|]. cbn [line_annotations_loop].
    destruct n as [|n]; [lia|].
    assert (Hh : match content ++ rest with c :: _ => c <> cCaret | [] => True end).
    { destruct content as [|c content]; cbn.
      - destruct Hr as [->|[X _]]; [exact I|congruence].
      - intros ->. apply H2. left. reflexivity. }
    change (lead ++ repeat cCaret (S n) ++ content ++ rest) with (lead ++ cCaret :: repeat cCaret n ++ content ++ rest).
    rewrite cut_some by exact H1.
    change (cCaret :: repeat cCaret n ++ content ++ rest) with (repeat cCaret (S n) ++ content ++ rest).
    rewrite carets_repeat by exact Hh. cbn [repeat app bind].
    change (cCaret :: repeat cCaret n) with (repeat cCaret (S n)). rewrite repeat_len.
    assert (C : match cut_at cCaret (content ++ rest) with Some p => p | None => (content ++ rest, []) end = (content, rest)).
    { destruct Hr as [->|[_ [r ->]]].
      - rewrite app_nil_r. rewrite (proj2 (cut_none _ _) H2). reflexivity.
      - rewrite cut_some by exact H2. reflexivity. }
    rewrite C. cbn [negb andb].
    destruct (IH (o + tlen lead + (N.of_nat (S n) + tlen content)) ltac:(lia) f) as (anns & E & M).
    { rewrite !app_length, repeat_length in L. rewrite ?app_length in L. lia. }
    rewrite E. cbn [bind]. eexists. split; [reflexivity|]. cbn [map shifted of_run]. rewrite M. unfold label, is_file.
    f_equal. f_equal; lia.
Qed.
Lemma bars_loop off o t bs : bars (o + off) t bs -> ~ In cCaret t -> forall f, (length t < f)%nat ->
  exists anns, line_annotations_loop f cBar t o = Ok anns /\ map (shifted off) anns = map of_bar bs.
Proof.
  intros R. remember (o + off) as o' eqn:Eo. revert o Eo. induction R as [o' t H|o' lead content rest l H1 H2 Hr R IH]; intros o -> Nc f L.
  - destruct f as [|f]; [lia|]. cbn [line_annotations_loop]. rewrite (proj2 (cut_none _ _) H). exists []. auto.
  - destruct f as [|f]; [lia|]. cbn [line_annotations_loop]. cbn [app] in *.
    rewrite cut_some by exact H1. cbn [carets]. change (cBar =? cCaret) with false. cbn [bind].
    rewrite N.eqb_refl. cbn [assert_ bind].
    assert (C : match cut_at cBar (content ++ rest) with Some p => p | None => (content ++ rest, []) end = (content, rest)).
    { destruct Hr as [->|[r ->]].
      - rewrite app_nil_r. rewrite (proj2 (cut_none _ _) H2). reflexivity.
      - rewrite cut_some by exact H2. reflexivity. }
    rewrite C. cbn [negb andb].
    destruct (IH (o + tlen lead + (1 + tlen content)) ltac:(lia)) with (f := f) as (anns & E & M).
    { intros I. apply Nc. rewrite in_app_iff. right. right. rewrite in_app_iff. auto. }
    { rewrite app_length in L. cbn [length] in L. rewrite app_length in L. lia. }
    rewrite E. cbn [bind]. eexists. split; [reflexivity|]. cbn [map shifted of_bar fst snd]. rewrite M.
    unfold of_bar. cbn [fst snd]. f_equal. f_equal. lia.
Qed.
Lemma runs_exist n : forall t o, (length t <= n)%nat -> exists rs, runs o t rs.
Proof.
  induction n as [|n IH]; intros t o L.
  - destruct t; [|cbn in L; lia]. exists []. constructor. intros [].
  - destruct (in_dec N.eq_dec cCaret t) as [I|I]; [|exists []; constructor; exact I].
    destruct (cut_exists _ _ I) as (lead & b & -> & H1).
    destruct (repeat_exists b) as (k & r & -> & Hr).
    assert (exists content rest, r = content ++ rest /\ ~ In cCaret content /\ (rest = [] \/ content <> [] /\ exists x, rest = cCaret :: x)) as (content & rest & -> & H2 & H3).
    { destruct (in_dec N.eq_dec cCaret r) as [J|J].
      - destruct (cut_exists _ _ J) as (c & x & -> & Hc). exists c, (cCaret :: x). split; [reflexivity|]. split; [exact Hc|].
        right. split; [|eauto]. intros ->. cbn in Hr. congruence.
      - exists r, []. rewrite app_nil_r. auto. }
    destruct (IH rest (o + tlen lead + N.of_nat (S k) + tlen content)) as [l R].
    { rewrite app_length in L. cbn [length] in L. rewrite !app_length in L. lia. }
    eexists. change (lead ++ cCaret :: repeat cCaret k ++ content ++ rest) with (lead ++ repeat cCaret (S k) ++ content ++ rest).
    apply runs_one; eauto. lia.
Qed.
Lemma bars_exist n : forall t o, (length t <= n)%nat -> exists bs, bars o t bs.
Proof.
  induction n as [|n IH]; intros t o L.
  - destruct t; [|cbn in L; lia]. exists []. constructor. intros [].
  - destruct (in_dec N.eq_dec cBar t) as [I|I]; [|exists []; constructor; exact I].
    destruct (cut_exists _ _ I) as (lead & r & -> & H1).
    assert (exists content rest, r = content ++ rest /\ ~ In cBar content /\ (rest = [] \/ exists x, rest = cBar :: x)) as (content & rest & -> & H2 & H3).
    { destruct (in_dec N.eq_dec cBar r) as [J|J].
      - destruct (cut_exists _ _ J) as (c & x & -> & Hc). exists c, (cBar :: x). eauto.
      - exists r, []. rewrite app_nil_r. auto. }
    destruct (IH rest (o + tlen lead + 1 + tlen content)) as [l R].
    { rewrite app_length in L. cbn [length] in L. rewrite !app_length in L. lia. }
    eexists. change (lead ++ cBar :: content ++ rest) with (lead ++ [cBar] ++ content ++ rest).
    apply bars_one; eauto.
Qed.
Lemma bars_fun o t b1 : bars o t b1 -> forall b2, bars o t b2 -> b1 = b2.
Proof.
  induction 1 as [o t H|o lead content rest l H1 H2 Hr R IH]; intros b2 B.
  - inversion B; subst; [reflexivity|]. exfalso. apply H. rewrite !in_app_iff. cbn. auto.
  - inversion B as [? ? H|? lead' content' rest' l' H1' H2' Hr' R' Eo E]; subst.
    + exfalso. apply H. rewrite !in_app_iff. cbn. auto.
    + cbn [app] in E. apply cut_unique in E as [-> E]; auto.
      assert (content' = content /\ rest' = rest) as [-> ->].
      { destruct Hr as [->|[r ->]], Hr' as [->|[r' ->]].
        - rewrite !app_nil_r in E. auto.
        - rewrite app_nil_r in E. subst. exfalso. apply H2. rewrite in_app_iff. cbn. auto.
        - rewrite app_nil_r in E. subst. exfalso. apply H2'. rewrite in_app_iff. cbn. auto.
        - apply cut_unique in E as [-> ->]; auto. }
      rewrite (IH _ R'). reflexivity.
Qed.
Lemma runs_fun o t rs : runs o t rs -> forall rs', runs o t rs' -> rs = rs'.
Proof.
  induction 1 as [o t H|o lead n content rest l H1 Hn H2 Hr R IH]; intros rs' R'.
  - inversion R' as [|? lead' n' ? ? ? ? ? ? ? ? Eo E]; subst; [reflexivity|]. exfalso. apply H. rewrite in_app_iff. right. destruct n'; [lia|]. left. reflexivity.
  - inversion R' as [? ? H|? lead' n' content' rest' l' H1' Hn' H2' Hr' R1 Eo E]; subst.
    + exfalso. apply H. rewrite in_app_iff. right. destruct n; [lia|]. left. reflexivity.
    + destruct n as [|n]; [lia|]. destruct n' as [|n']; [lia|]. cbn [repeat app] in E.
      apply cut_unique in E as [-> E]; auto.
      assert (forall c r, ~ In cCaret c -> r = [] \/ (c <> [] /\ exists x, r = cCaret :: x) ->
                match c ++ r with y :: _ => y <> cCaret | [] => True end) as Hh.
      { intros c r N [->|[N2 [x ->]]]; destruct c; cbn; try exact I; try congruence; intros ->; apply N; left; reflexivity. }
      pose proof (carets_repeat n (content ++ rest) (Hh _ _ H2 Hr)) as Q. rewrite <- E in Q.
      rewrite (carets_repeat n' (content' ++ rest') (Hh _ _ H2' Hr')) in Q. injection Q as Q1 Q2.
      assert (n' = n) as -> by (apply (f_equal (@length N)) in Q1; rewrite !repeat_length in Q1; exact Q1).
      assert (content' = content /\ rest' = rest) as [-> ->].
      { destruct Hr as [->|[_ [r ->]]], Hr' as [->|[_ [r' ->]]].
        - rewrite !app_nil_r in Q2. auto.
        - rewrite app_nil_r in Q2. subst. exfalso. apply H2. rewrite in_app_iff. cbn. auto.
        - rewrite app_nil_r in Q2. subst. exfalso. apply H2'. rewrite in_app_iff. cbn. auto.
        - apply cut_unique in Q2 as [-> ->]; auto. }
      rewrite (IH _ R1). reflexivity.
Qed.
Lemma runs_above o t rs : runs o t rs -> Forall (fun c => o < snd (fst c)) rs /\ NoDup (map (fun c => snd (fst c)) rs).
Proof.
  induction 1 as [|o lead n content rest l H1 Hn H2 Hr R [IH1 IH2]]; [split; constructor|].
  split.
  - constructor; cbn; [lia|]. eapply Forall_impl; [|exact IH1]. cbn. intros; lia.
  - cbn. constructor; [|exact IH2]. rewrite in_map_iff. intros (c & E & I). rewrite Forall_forall in IH1. specialize (IH1 c I). lia.
Qed.
Lemma existsb_caret t : existsb (N.eqb cCaret) t = true <-> In cCaret t.
Proof.
  rewrite existsb_exists. split.
  - intros (x & I & E). apply N.eqb_eq in E. subst. exact I.
  - intros I. exists cCaret. rewrite N.eqb_refl. auto.
Qed.

(** ** The map of line lengths *)
Definition map_ok (m : line_map) (ls : earlier) : Prop :=
  forall e s, (exists k, first_from e m = Some (k, s)) <-> last_long_enough ls e s.
Lemma first_insert e len start m :
  first_from e (map_insert len start (map_split_off len m)) = if e <=? len then Some (len, start) else first_from e m.
Proof.
  assert (G : forall m', Forall (fun p => len <= fst p) m' ->
    first_from e (map_insert len start m') = if e <=? len then Some (len, start) else first_from e m').
  { intros m' F. destruct F as [|[k v] m' Hk F]; cbn [map_insert first_from]; [reflexivity|]. cbn in Hk.
    destruct (len <? k) eqn:E1; [reflexivity|]. replace (len =? k) with true by lia. cbn [first_from].
    destruct (e <=? len) eqn:E2; [reflexivity|]. replace (e <=? k) with false by lia. reflexivity. }
  rewrite G.
  - destruct (e <=? len) eqn:E; [reflexivity|]. induction m as [|[k v] m IH]; [reflexivity|]. unfold map_split_off in *. cbn [filter fst first_from].
    destruct (len <=? k) eqn:E1; cbn [first_from].
    + destruct (e <=? k); [reflexivity|exact IH].
    + replace (e <=? k) with false by lia. exact IH.
  - unfold map_split_off. apply Forall_forall. intros p I. apply filter_In in I as [_ I]. lia.
Qed.
Lemma last_cons start len ls e s :
  last_long_enough ((start, len) :: ls) e s <-> if e <=? len then s = start else last_long_enough ls e s.
Proof.
  unfold last_long_enough. destruct (e <=? len) eqn:E.
  - split.
    + intros (newer & len' & older & Eq & H & F). destruct newer as [|p newer]; [injection Eq; auto|].
      injection Eq as <- Eq. inversion F as [|? ? X]; subst. cbn in X. lia.
    + intros ->. exists [], len, ls. repeat split; [lia|constructor].
  - split.
    + intros (newer & len' & older & Eq & H & F). destruct newer as [|p newer]; [injection Eq as -> -> ->; lia|].
      injection Eq as <- ->. inversion F; subst. exists newer, len', older. auto.
    + intros (newer & len' & older & -> & H & F). exists ((start, len) :: newer), len', older.
      split; [reflexivity|]. split; [exact H|]. constructor; [cbn; lia|exact F].
Qed.
Lemma map_ok_insert m ls len start : map_ok m ls -> map_ok (map_insert len start (map_split_off len m)) ((start, len) :: ls).
Proof.
  intros M e s. rewrite last_cons, first_insert. destruct (e <=? len).
  - split; [intros [k [= _ ->]]; reflexivity|intros ->; eauto].
  - apply M.
Qed.
Lemma map_ok_nil : map_ok [] [].
Proof.
  intros e s. split; [intros [k H]; discriminate|]. intros (newer & len & older & E & _). destruct newer; discriminate.
Qed.

(** ** One line *)
Definition place (size : N) (m : line_map) (c : N * N * text) : res (N * N * text) :=
  let '(s, e, content) := c in
  let! range := if is_file content then Ok (0, size)
                else let! p := unwrap (first_from e m) in Ok (s + snd p, e + snd p) in
  Ok (range, label content).
Lemma place_note size m ls c n : map_ok m ls -> (place size m c = Ok n <-> note size ls c n).
Proof.
  intros M. destruct c as [[s e] content]. unfold place, label. split.
  - intros H. destruct (is_file content) eqn:F.
    + injection H as <-. apply starts_with_spec in F as [r ->]. constructor. apply trim_trimmed.
    + destruct (first_from e m) as [[k at_]|] eqn:E; [|discriminate]. cbn in H. injection H as <-.
      constructor; [|apply trim_trimmed|apply M; eauto].
      intros c ->. assert (T : is_file (file_word ++ c) = true) by (apply starts_with_spec; eauto). congruence.
  - inversion 1; subst.
    + match goal with |- context[is_file ?w] => assert (T : is_file w = true) by (apply starts_with_spec; eexists; reflexivity) end.
      rewrite T. cbn [bind skipn].
      match goal with K : trimmed _ _ |- _ => rewrite (trimmed_fun _ _ K) end. reflexivity.
    + assert (T : is_file content = false).
      { destruct (is_file content) eqn:T; [|reflexivity]. apply starts_with_spec in T as [r T].
        match goal with K : forall c, content <> _ |- _ => exfalso; exact (K r T) end. }
      rewrite T. match goal with K : last_long_enough _ _ _ |- _ => apply M in K as [k K]; rewrite K end. cbn [unwrap bind snd].
      match goal with K : trimmed _ _ |- _ => rewrite (trimmed_fun _ _ K) end. reflexivity.
Qed.
Definition ends (rs : list (N * N * text)) : list N := map (fun c => snd (fst c)) rs.
Lemma line_loop_runs size off m prev rs : forall anns res_ this,
  map (shifted off) anns = map of_run rs ->
  line_loop size off m prev anns res_ this =
  (let! own := map_res (place size m) rs in Ok (res_ ++ own, this ++ combine (ends rs) (seq (length res_) (length rs)))).
Proof.
  induction rs as [|[[s e] content] rs IH]; intros anns res_ this E.
  - destruct anns; [|discriminate]. cbn. rewrite !app_nil_r. reflexivity.
  - destruct anns as [|[s' e' c f|] anns]; [discriminate| |discriminate]. cbn [map shifted of_run] in E.
    injection E as Es Ee Ec Ef E. cbn [line_loop map_res place]. rewrite Es, Ee, Ec, Ef.
    destruct (is_file content); cbn [bind].
    + rewrite (IH _ _ _ E). destruct (map_res (place size m) rs) as [own| |]; cbn [bind]; [|reflexivity..].
      rewrite app_length. cbn [length ends map combine seq fst snd]. rewrite <- !app_assoc. replace (length res_ + 1)%nat with (S (length res_)) by lia. reflexivity.
    + destruct (first_from e m) as [[k a]|]; cbn [unwrap bind snd]; [|reflexivity].
      rewrite (IH _ _ _ E). destruct (map_res (place size m) rs) as [own| |]; cbn [bind]; [|reflexivity..].
      rewrite app_length. cbn [length ends map combine seq fst snd]. rewrite <- !app_assoc. replace (length res_ + 1)%nat with (S (length res_)) by lia. reflexivity.
Qed.
(** The bars of the next line, added to the notes of the line before. *)
Definition ext (bs : list (N * text)) (e : N) (v : text) : text :=
  fold_left (fun v b => if fst b =? e then v ++ [cLF] ++ trim (snd b) ++ [cLF] else v) bs v.
Lemma extended_fun bs e v v' : extended bs e v v' <-> v' = ext bs e v.
Proof.
  split.
  - induction 1; [reflexivity| |].
    + unfold ext in *. cbn [fold_left fst snd]. rewrite N.eqb_refl. rewrite (trimmed_fun _ _ H). exact IHextended.
    + unfold ext in *. cbn [fold_left fst snd]. replace (e' =? e) with false by lia. exact IHextended.
  - intros ->. revert v. induction bs as [|[o c] bs IH]; intros v; [constructor|]. unfold ext in *. cbn [fold_left fst snd].
    destruct (o =? e) eqn:E.
    + apply N.eqb_eq in E. subst. econstructor; [apply trim_trimmed|]. apply IH.
    + constructor; [lia|apply IH].
Qed.
Definition pending_note : Type := N * (N * N * text).
Definition add_bar (b : N * text) (p : pending_note) : pending_note :=
  let '(e, (r, c)) := p in (e, (r, if fst b =? e then c ++ [cLF] ++ trim (snd b) ++ [cLF] else c)).
Definition prevs (k : nat) (P : list pending_note) : list (N * nat) := combine (map fst P) (seq k (length P)).
Lemma add_bar_fst (b : N * text) P : map fst (map (add_bar b) P) = map fst P.
Proof. rewrite map_map. apply map_ext. intros [e [r c]]. reflexivity. Qed.
Lemma add_bar_other (b : N * text) P : ~ In (fst b) (map fst P) -> map (add_bar b) P = P.
Proof.
  intros H. rewrite <- (map_id P) at 2. apply map_ext_in. intros [e [r c]] I. cbn.
  replace (fst b =? e) with false; [reflexivity|]. symmetry. apply N.eqb_neq. intros E. apply H. rewrite E.
  apply in_map_iff. exists (e, (r, c)). auto.
Qed.
Lemma push_at d s e c r v : push_content (d ++ (s, e, c) :: r) (length d) v = d ++ (s, e, c ++ [cLF] ++ v ++ [cLF]) :: r.
Proof. induction d as [|[[? ?] ?] d IH]; [reflexivity|]. cbn. f_equal. exact IH. Qed.
Lemma find_bar (b : N * text) P : NoDup (map fst P) -> forall d, In (fst b) (map fst P) ->
  exists i, find (fun p => fst p =? fst b) (prevs (length d) P) = Some (fst b, i) /\
    push_content (d ++ map snd P) i (trim (snd b)) = d ++ map snd (map (add_bar b) P).
Proof.
  induction P as [|[e [[s e'] c]] P IH]; intros ND d I; [destruct I|]. inversion ND as [|? ? Nin ND']; subst.
  cbn [prevs map fst snd length seq combine find] in *. destruct (e =? fst b) eqn:E.
  - apply N.eqb_eq in E. exists (length d). rewrite E. split; [reflexivity|]. rewrite push_at. cbn [add_bar].
    rewrite <- E, N.eqb_refl. f_equal. f_equal. rewrite add_bar_other; [reflexivity|]. rewrite <- E. exact Nin.
  - destruct I as [I|I]; [lia|]. destruct (IH ND' (d ++ [(s, e', c)]) I) as (i & F & Q).
    exists i. rewrite app_length in F. cbn [length] in F. replace (length d + 1)%nat with (S (length d)) in F by lia.
    split; [exact F|]. rewrite <- !app_assoc in Q. cbn [app] in Q. rewrite Q. cbn [add_bar]. rewrite N.eqb_sym, E. reflexivity.
Qed.
Lemma find_no_bar (b : N * text) P k : ~ In (fst b) (map fst P) -> find (fun p => fst p =? fst b) (prevs k P) = None.
Proof.
  revert k. induction P as [|[e x] P IH]; intros k H; [reflexivity|]. cbn [prevs map fst length seq combine find] in *.
  replace (e =? fst b) with false by (symmetry; apply N.eqb_neq; intros E; apply H; left; exact E).
  apply IH. intros I. apply H. right. exact I.
Qed.
Definition add_bars (bs : list (N * text)) (P : list pending_note) : list pending_note :=
  map (fun p => (fst p, (fst (snd p), ext bs (fst p) (snd (snd p))))) P.
Lemma add_bars_cons b bs P : add_bars (b :: bs) P = add_bars bs (map (add_bar b) P).
Proof. unfold add_bars. rewrite map_map. apply map_ext. intros [e [r c]]. reflexivity. Qed.
Lemma add_bars_nil P : add_bars [] P = P.
Proof. unfold add_bars. rewrite <- (map_id P) at 2. apply map_ext. intros [e [r c]]. reflexivity. Qed.
Lemma prevs_bar k b P : prevs k (map (add_bar b) P) = prevs k P.
Proof. unfold prevs. rewrite add_bar_fst, map_length. reflexivity. Qed.
Lemma line_loop_bars size off m d bs : forall anns P this, NoDup (map fst P) ->
  map (shifted off) anns = map of_bar bs ->
  forall x, line_loop size off m (prevs (length d) P) anns (d ++ map snd P) this = Ok x <->
    Forall (fun b => In (fst b) (map fst P)) bs /\ x = (d ++ map snd (add_bars bs P), this).
Proof.
  induction bs as [|b bs IH]; intros anns P this ND E x.
  - destruct anns; [|discriminate]. cbn. rewrite add_bars_nil. split; [intros [= <-]; auto|intros [_ ->]; reflexivity].
  - destruct anns as [|[|o c] anns]; [discriminate|discriminate|]. cbn [map shifted] in E. injection E as Eo Ec E.
    cbn [line_loop]. rewrite Eo, Ec.
    destruct (in_dec N.eq_dec (fst b) (map fst P)) as [I|I].
    + destruct (find_bar b P ND d I) as (i & F & Q). rewrite F. cbn [unwrap bind snd]. rewrite Q.
      rewrite <- (prevs_bar (length d) b P). rewrite IH by (rewrite ?add_bar_fst; assumption).
      rewrite add_bar_fst, add_bars_cons. split; intros [H ->]; (split; [|reflexivity]); [constructor; auto|inversion H; auto].
    + rewrite find_no_bar by exact I. split; [discriminate|]. intros [H _]. inversion H; contradiction.
Qed.

(** ** All lines *)
Lemma commented_det l a b a' b' : commented l a b -> commented l a' b' -> a = a' /\ b = b'.
Proof. intros H H'. apply commented_fun in H. apply commented_fun in H'. rewrite H in H'. injection H' as -> ->. auto. Qed.
Lemma commented_occurs l a b : commented l a b -> occurs slashes l.
Proof. intros [-> _]. exists a, b. reflexivity. Qed.
Lemma map_res_ok {A B} (f : A -> res B) l r : map_res f l = Ok r <-> Forall2 (fun x y => f x = Ok y) l r.
Proof.
  revert r. induction l as [|x l IH]; intros r; cbn [map_res].
  - split; [intros [= <-]; constructor|inversion 1; reflexivity].
  - split.
    + intros H. apply bind_ok in H as (y & E & H). apply bind_ok in H as (ys & E2 & H). injection H as <-.
      constructor; [exact E|]. apply IH. exact E2.
    + inversion 1; subst. match goal with K : f x = Ok _ |- _ => rewrite K end. cbn [bind].
      match goal with K : Forall2 _ l _ |- _ => apply IH in K; rewrite K end. reflexivity.
Qed.
Definition zip_notes (rs : list (N * N * text)) (own : list (N * N * text)) : list pending_note := combine (ends rs) own.
Lemma zip_fst rs own : length rs = length own -> map fst (zip_notes rs own) = ends rs.
Proof.
  unfold zip_notes, ends. revert own. induction rs as [|r rs IH]; destruct own as [|o own]; intros E; try discriminate; [reflexivity|].
  cbn. f_equal. apply IH. injection E; auto.
Qed.
Lemma zip_snd rs own : length rs = length own -> map snd (zip_notes rs own) = own.
Proof.
  unfold zip_notes, ends. revert own. induction rs as [|r rs IH]; destruct own as [|o own]; intros E; try discriminate; [reflexivity|].
  cbn. f_equal. apply IH. injection E; auto.
Qed.
Lemma zip_length rs own : length rs = length own -> length (zip_notes rs own) = length rs.
Proof. intros E. unfold zip_notes, ends, pending_note. rewrite combine_length, map_length, E. lia. Qed.
Lemma Forall2_len {A B} (R : A -> B -> Prop) l r : Forall2 R l r -> length l = length r.
Proof. induction 1; cbn; congruence. Qed.

(** The notes of one line, with the bars of the next. *)
Lemma own_notes size m ls rs bs final : map_ok m ls ->
  ((exists own, Forall2 (fun c n => place size m c = Ok n) rs own /\ final = map snd (add_bars bs (zip_notes rs own))) <->
   Forall2 (fun c n => exists v, note size ls c (fst n, v) /\ extended bs (snd (fst c)) v (snd n)) rs final).
Proof.
  intros M. revert final. induction rs as [|c rs IH]; intros final.
  - split.
    + intros (own & F & ->). inversion F; subst. constructor.
    + inversion 1; subst. exists []. split; constructor.
  - split.
    + intros (own & F & ->). inversion F as [|? n ? own' H1 H2]; subst. cbn. constructor.
      * exists (snd n). cbn. split; [apply (place_note _ _ _ _ _ M); destruct n; exact H1|apply extended_fun; reflexivity].
      * apply IH. exists own'. split; [exact H2|reflexivity].
    + inversion 1 as [|? n ? fin (v & N & X) H2]; subst. apply IH in H2 as (own & F & ->).
      exists ((fst n, v) :: own). split; [constructor; [apply (place_note _ _ _ _ _ M); exact N|exact F]|].
      cbn. apply extended_fun in X. rewrite <- X. destruct n; reflexivity.
Qed.
Lemma next_bars_exist lines : exists bs, next_bars lines bs.
Proof.
  destruct lines as [|l lines]; [exists []; reflexivity|].
  destruct (find_split slashes l) as [[code comment]|] eqn:F.
  - apply find_split_inv in F. destruct (in_dec N.eq_dec cCaret comment) as [I|I].
    + exists []. right. eauto 6.
    + destruct (bars_exist (length comment) comment (tlen code + 2) (le_n _)) as [bs B]. exists bs. left. eauto 6.
  - apply find_split_none in F. exists []. right. auto.
Qed.
Lemma loop_main size : forall lines m start ls d P final,
  map_ok m ls -> NoDup (map fst P) ->
  annotations_loop size lines m start (prevs (length d) P) (d ++ map snd P) = Ok final <->
  exists bs r, next_bars lines bs /\ annotated size lines start ls (map fst P) r /\ final = d ++ map snd (add_bars bs P) ++ r.
Proof.
  induction lines as [|l lines IH]; intros m start ls d P final M ND.
  - cbn [annotations_loop next_bars]. split.
    + intros [= <-]. exists [], []. rewrite add_bars_nil, app_nil_r. repeat split. constructor.
    + intros (bs & r & -> & A & ->). inversion A; subst. rewrite add_bars_nil, app_nil_r. reflexivity.
  - cbn [annotations_loop]. destruct (find_split slashes l) as [[code comment]|] eqn:F.
    + pose proof (find_split_inv _ _ _ F) as C. unfold extract_line_annotations.
      destruct (existsb (N.eqb cCaret) comment) eqn:X.
      * apply existsb_caret in X. destruct (runs_exist (length comment) comment (tlen code + 2) (le_n _)) as [rs R].
        destruct (runs_loop (tlen code + 2) 0 comment rs R (S (length comment)) ltac:(lia)) as (anns & E & Ma).
        rewrite E. cbn [bind]. rewrite (line_loop_runs size (tlen code + 2) m _ rs anns _ [] Ma).
        assert (NB : next_bars (l :: lines) []) by (right; split; [reflexivity|right; eauto]).
        assert (NP : forall r, annotated size (l :: lines) start ls (map fst P) r -> exists own, map_res (place size m) rs = Ok own).
        { intros r A. inversion A as [|? ? ? ? ? ? Hn|? ? ? ? ? r' code' comment' rs' bs own' C' I' R' B' O' A'|? ? ? ? ? ? code' comment' ? C' I' ?]; subst.
          - exfalso. apply Hn. eapply commented_occurs; eauto.
          - destruct (commented_det _ _ _ _ _ C C') as [<- <-]. rewrite <- (runs_fun _ _ _ R _ R') in O'.
            apply (own_notes size m ls) in O' as (own2 & P2 & _); [|exact M]. exists own2. apply map_res_ok. exact P2.
          - destruct (commented_det _ _ _ _ _ C C') as [<- <-]. contradiction. }
        destruct (map_res (place size m) rs) as [own|w|] eqn:Pl; cbn [bind].
        -- apply map_res_ok in Pl. pose proof (Forall2_len _ _ _ Pl) as Len.
           assert (Eq : combine (ends rs) (seq (length (d ++ map snd P)) (length rs)) = prevs (length (d ++ map snd P)) (zip_notes rs own)).
           { unfold prevs. rewrite zip_fst, zip_length by exact Len. reflexivity. }
           cbn [app]. rewrite Eq. replace own with (map snd (zip_notes rs own)) at 2 by (apply zip_snd; exact Len).
           rewrite (IH _ _ ((start, tlen code) :: ls)); [|apply map_ok_insert; exact M|rewrite zip_fst by exact Len; apply (runs_above _ _ _ R)].
           rewrite zip_fst by exact Len. split.
           ++ intros (bs & r & B & A & ->). exists [], (map snd (add_bars bs (zip_notes rs own)) ++ r). split; [exact NB|].
              split; [|rewrite add_bars_nil, <- app_assoc; reflexivity].
              eapply annotated_carets; eauto. apply (own_notes size m ls); [exact M|]. eauto.
           ++ intros (bs0 & r0 & B0 & A & ->).
              inversion A as [|? ? ? ? ? ? Hn|? ? ? ? ? r code' comment' rs' bs own' C' I' R' B' O' A'|? ? ? ? ? ? code' comment' ? C' I' ?]; subst.
              ** exfalso. apply Hn. eapply commented_occurs; eauto.
              ** destruct (commented_det _ _ _ _ _ C C') as [<- <-].
                 assert (bs0 = []) as ->.
                 { destruct B0 as [(c1 & c2 & C1 & N1 & _)|[-> _]]; [|reflexivity]. destruct (commented_det _ _ _ _ _ C C1) as [<- <-]. contradiction. }
                 assert (rs' = rs) as ->.
                 { symmetry. eapply runs_fun; eauto. }
                 apply (own_notes size m ls) in O' as (own2 & P2 & ->); [|exact M].
                 assert (own2 = own) as ->.
                 { apply map_res_ok in P2. apply map_res_ok in Pl. congruence. }
                 exists bs, r. split; [exact B'|]. split; [exact A'|]. rewrite add_bars_nil, <- !app_assoc. reflexivity.
              ** destruct (commented_det _ _ _ _ _ C C') as [<- <-]. contradiction.
        -- split; [discriminate|]. intros (bs0 & r0 & B0 & A & ->). exfalso. destruct (NP _ A) as [own Q]. discriminate Q.
        -- split; [discriminate|]. intros (bs0 & r0 & B0 & A & ->). exfalso. destruct (NP _ A) as [own Q]. discriminate Q.
      * assert (Nc : ~ In cCaret comment) by (rewrite <- existsb_caret; congruence).
        destruct (bars_exist (length comment) comment (tlen code + 2) (le_n _)) as [bs B].
        destruct (bars_loop (tlen code + 2) 0 comment bs B Nc (S (length comment)) ltac:(lia)) as (anns & E & Ma).
        rewrite E. cbn [bind].
        pose proof (line_loop_bars size (tlen code + 2) m d bs anns P [] ND Ma) as LL.
        assert (NB : next_bars (l :: lines) bs) by (left; eauto).
        assert (NBu : forall b, next_bars (l :: lines) b -> b = bs).
        { intros b [(c1 & c2 & C1 & N1 & B1)|[_ [O|(c1 & c2 & C1 & I1)]]].
          - destruct (commented_det _ _ _ _ _ C C1) as [<- <-]. eapply bars_fun; eauto.
          - exfalso. apply O. eapply commented_occurs; eauto.
          - destruct (commented_det _ _ _ _ _ C C1) as [<- <-]. contradiction. }
        assert (AU : forall r, annotated size (l :: lines) start ls (map fst P) r <->
           Forall (fun b => In (fst b) (map fst P)) bs /\ annotated size lines (start + tlen l) ((start, tlen code) :: ls) [] r).
        { intros r. split.
          - inversion 1 as [|? ? ? ? ? ? Hn|? ? ? ? ? ? code' comment' ? ? ? C' I' ? ? ? ?|? ? ? ? ? ? code' comment' bs' C' I' B' Fb A']; subst.
            + exfalso. apply Hn. eapply commented_occurs; eauto.
            + destruct (commented_det _ _ _ _ _ C C') as [<- <-]. contradiction.
            + destruct (commented_det _ _ _ _ _ C C') as [<- <-]. rewrite (bars_fun _ _ _ B _ B'). auto.
          - intros [H1 H2]. eapply annotated_bars; eauto. }
        destruct (line_loop size (tlen code + 2) m (prevs (length d) P) anns (d ++ map snd P) []) as [x|w|] eqn:EL; cbn [bind].
        -- destruct (proj1 (LL x) eq_refl) as [Fb ->]. cbn [bind].
           pose proof (IH (map_insert (tlen code) start (map_split_off (tlen code) m)) (start + tlen l) ((start, tlen code) :: ls)
                        (d ++ map snd (add_bars bs P)) [] final (map_ok_insert _ _ _ _ M) (NoDup_nil _)) as K.
           cbn [map app prevs combine seq length] in K. rewrite app_nil_r in K. rewrite K. clear K. split.
           ++ intros (b2 & r & _ & A & ->). exists bs, r. split; [exact NB|]. split; [apply AU; auto|].
              cbn [add_bars map app]. rewrite <- ?app_assoc. reflexivity.
           ++ intros (b2 & r & B2 & A & ->). rewrite (NBu _ B2). apply AU in A as [_ A].
              destruct (next_bars_exist lines) as [b3 B3]. exists b3, r. split; [exact B3|]. split; [exact A|].
              cbn [add_bars map app]. rewrite <- ?app_assoc. reflexivity.
        -- split; [discriminate|]. intros (b2 & r & B2 & A & ->). apply AU in A as [Fb _].
           exfalso. destruct (LL (d ++ map snd (add_bars bs P), [])) as [_ Q]. discriminate Q. auto.
        -- split; [discriminate|]. intros (b2 & r & B2 & A & ->). apply AU in A as [Fb _].
           exfalso. destruct (LL (d ++ map snd (add_bars bs P), [])) as [_ Q]. discriminate Q. auto.
    + cbn [bind]. apply find_split_none in F.
      pose proof (IH (map_insert (tlen l) start (map_split_off (tlen l) m)) (start + tlen l) ((start, tlen l) :: ls)
                   (d ++ map snd P) [] final (map_ok_insert _ _ _ _ M) (NoDup_nil _)) as K.
      cbn [map app prevs combine seq length] in K. rewrite app_nil_r in K. rewrite K. clear K. split.
      * intros (b2 & r & _ & A & ->). exists [], r. split; [right; auto|]. split; [apply annotated_code; assumption|].
        rewrite add_bars_nil. cbn [add_bars map app]. rewrite <- ?app_assoc. reflexivity.
      * intros (b2 & r & B2 & A & ->). destruct (next_bars_exist lines) as [b3 B3]. exists b3, r. split; [exact B3|].
        assert (b2 = []) as -> by (destruct B2 as [(c1 & c2 & C1 & _)|[-> _]]; [exfalso; apply F; eapply commented_occurs; eauto|reflexivity]).
        inversion A as [| |? ? ? ? ? ? ? ? ? ? ? C'|? ? ? ? ? ? ? ? ? C']; subst;
          [|exfalso; apply F; eapply commented_occurs; eauto..].
        split; [assumption|]. rewrite add_bars_nil. cbn [add_bars map app]. rewrite <- ?app_assoc. reflexivity.
Qed.
