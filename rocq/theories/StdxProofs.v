(** Proofs for PropStdx.v. *)
From Coq Require Import String Sorted.
From Verif Require Import Base BaseProofs Lexer LexerProofs Stdx StdxSpec.
Local Open Scope N_scope.

(** ** Case conversion *)
Lemma lower_ascii c : to_ascii_lowercase c = lower c.
Proof. reflexivity. Qed.
Lemma lower_upper c : lower (to_ascii_uppercase c) = lower c.
Proof.
  unfold lower, to_ascii_uppercase, is_ascii_lowercase.
  destruct ((97 <=? c) && (c <=? 122)) eqn:E; [|reflexivity].
  destruct ((65 <=? c - 32) && (c - 32 <=? 90)) eqn:E2; destruct ((65 <=? c) && (c <=? 90)) eqn:E3; lia.
Qed.
Lemma lower_lower c : lower (lower c) = lower c.
Proof.
  unfold lower. destruct ((65 <=? c) && (c <=? 90)) eqn:E; [|rewrite E; reflexivity].
  destruct ((65 <=? c + 32) && (c + 32 <=? 90)) eqn:E2; lia.
Qed.
Lemma under_lower c : (lower c =? 95) = (c =? 95).
Proof. unfold lower. destruct ((65 <=? c) && (c <=? 90)) eqn:E; [|reflexivity]. lia. Qed.
Lemma under_upper c : (to_ascii_uppercase c =? 95) = (c =? 95).
Proof. unfold to_ascii_uppercase, is_ascii_lowercase. destruct ((97 <=? c) && (c <=? 122)) eqn:E; [|reflexivity]. lia. Qed.

Lemma pascal_no_under s : forall b, ~ In cUnder (pascal_loop b s).
Proof.
  induction s as [|c s IH]; intros b H; [destruct H|]. cbn [pascal_loop] in H. unfold cUnder in *.
  destruct (c =? 95) eqn:E; [eapply IH; exact H|].
  destruct b; destruct H as [H|H]; try (eapply IH; exact H).
  - pose proof (under_upper c) as U. rewrite H, E in U. discriminate.
  - pose proof (under_lower c) as U. rewrite <- lower_ascii, H, E in U. discriminate.
Qed.
Lemma pascal_letters s : forall b, letters (pascal_loop b s) = letters s.
Proof.
  induction s as [|c s IH]; intros b; [reflexivity|]. cbn [pascal_loop]. unfold letters in *. cbn [filter map]. unfold cUnder.
  destruct (c =? 95) eqn:E; cbn [negb]; [apply IH|].
  destruct b; cbn [filter].
  - rewrite under_upper, E. cbn [negb map]. rewrite lower_upper, IH. reflexivity.
  - rewrite lower_ascii, under_lower, E. cbn [negb map]. rewrite lower_lower, IH. reflexivity.
Qed.

Lemma snake_loop_spec f (Hf : forall c, (f c =? 95) = (c =? 95)) s : forall p rbuf,
  snake_loop f true (f p :: rbuf) s = rev (f p :: rbuf) ++ map f (split_words (Some p) s).
Proof.
  induction s as [|c s IH]; intros p rbuf; cbn [snake_loop split_words]; [rewrite app_nil_r; reflexivity|].
  unfold is_ascii_uppercase. rewrite andb_true_r. unfold cUnder. rewrite Hf.
  destruct ((65 <=? c) && (c <=? 90)); cbn [andb].
  - destruct (p =? 95) eqn:E; cbn [negb].
    + rewrite IH. cbn [rev]. rewrite <- !app_assoc. reflexivity.
    + rewrite IH. cbn [rev]. rewrite <- !app_assoc. cbn [app map].
      assert (F : f 95 = 95) by (pose proof (Hf 95); lia). rewrite F. reflexivity.
  - rewrite IH. cbn [rev]. rewrite <- !app_assoc. reflexivity.
Qed.
Lemma snake_spec f (Hf : forall c, (f c =? 95) = (c =? 95)) s : to_snake_case s f = map f (split_words None s).
Proof.
  unfold to_snake_case. destruct s as [|c s]; [reflexivity|]. cbn [snake_loop split_words]. rewrite andb_false_r.
  rewrite snake_loop_spec by exact Hf. rewrite map_app. reflexivity.
Qed.
Lemma split_letters s : forall p, filter (fun c => negb (c =? 95)) (split_words p s) = filter (fun c => negb (c =? 95)) s.
Proof.
  induction s as [|c s IH]; intros p; [reflexivity|]. cbn [split_words]. rewrite filter_app, IH.
  destruct p as [p|]; [destruct (_ && _)|]; cbn [filter app]; try reflexivity.
  all: destruct (c =? 95); reflexivity.
Qed.
Lemma filter_map_under f (Hf : forall c, (f c =? 95) = (c =? 95)) s :
  filter (fun c => negb (c =? 95)) (map f s) = map f (filter (fun c => negb (c =? 95)) s).
Proof.
  induction s as [|c s IH]; [reflexivity|]. cbn [map filter]. rewrite Hf. destruct (c =? 95); cbn [negb map]; rewrite IH; reflexivity.
Qed.
Lemma snake_letters f (Hf : forall c, (f c =? 95) = (c =? 95)) (Hl : forall c, lower (f c) = lower c) s :
  letters (to_snake_case s f) = letters s.
Proof.
  rewrite snake_spec by exact Hf. unfold letters. rewrite filter_map_under by exact Hf.
  rewrite split_letters, map_map. apply map_ext. exact Hl.
Qed.
Lemma split_no_upper s : Forall (fun c => ~ upper_letter c) s -> forall p, split_words p s = s.
Proof.
  induction 1 as [|c s H _ IH]; intros p; [reflexivity|]. cbn [split_words]. rewrite IH.
  destruct p as [p|]; [|reflexivity]. unfold upper_letter in H.
  destruct ((65 <=? c) && (c <=? 90)) eqn:E; [exfalso; lia|reflexivity].
Qed.
Lemma lower_not_upper c : ~ upper_letter (lower c).
Proof. unfold upper_letter, lower. destruct ((65 <=? c) && (c <=? 90)) eqn:E; lia. Qed.

(** ** Binary search *)
Lemma search_finds {A} (p : A -> bool) a b : forallb p a = true -> forallb (fun x => negb (p x)) b = true ->
  forall fuel left right, (left <= length a <= right)%nat -> (right <= length (a ++ b))%nat -> (right - left < fuel)%nat ->
  search p (a ++ b) fuel left right = Ok (length a).
Proof.
  intros Ha Hb. induction fuel as [|fuel IH]; intros left right H1 H2 H3; [lia|]. cbn [search].
  destruct (Nat.ltb left right) eqn:L.
  - apply Nat.ltb_lt in L. set (mid := (left + (right - left) / 2)%nat).
    assert (M : (left <= mid < right)%nat).
    { unfold mid. pose proof (Nat.div_lt (right - left) 2). lia. }
    destruct (nth_error (a ++ b) mid) as [x|] eqn:E; [|apply nth_error_None in E; lia].
    cbn [index bind]. rewrite forallb_forall in Ha, Hb.
    destruct (Nat.ltb mid (length a)) eqn:C.
    + apply Nat.ltb_lt in C. rewrite nth_error_app1 in E by exact C. rewrite (Ha x (nth_error_In _ _ E)).
      apply IH; lia.
    + apply Nat.ltb_ge in C. rewrite nth_error_app2 in E by exact C.
      specialize (Hb x (nth_error_In _ _ E)). destruct (p x); [discriminate|]. apply IH; lia.
  - apply Nat.ltb_ge in L. f_equal. lia.
Qed.
Lemma partition_point_finds {A} (p : A -> bool) a b : forallb p a = true -> forallb (fun x => negb (p x)) b = true ->
  partition_point_search p (a ++ b) = Ok (length a).
Proof. intros Ha Hb. apply search_finds; auto; rewrite ?app_length; lia. Qed.

Lemma skipn_app_exact {A} (a b : list A) : skipn (length a) (a ++ b) = b.
Proof. induction a; auto. Qed.

Lemma sorted_thirds {A} (key : A -> comparison) l : StronglySorted (fun x y => cmp_le (key x) (key y)) l ->
  exists a b c, l = a ++ b ++ c /\ Forall (fun x => key x = Lt) a /\ Forall (fun x => key x = Eq) b /\ Forall (fun x => key x = Gt) c.
Proof.
  induction 1 as [|x l S IH F]; [exists [], [], []; auto|].
  destruct IH as (a & b & c & -> & Ha & Hb & Hc).
  destruct (key x) eqn:K.
  - (* Eq *) destruct a as [|y a].
    + exists [], (x :: b), c. split; [reflexivity|]. auto.
    + apply Forall_inv in F. apply Forall_inv in Ha. rewrite Ha in F. destruct F.
  - exists (x :: a), b, c. split; [reflexivity|]. auto.
  - destruct a as [|y a]; [destruct b as [|y b]|].
    + exists [], [], (x :: c). split; [reflexivity|]. auto.
    + apply Forall_inv in F. apply Forall_inv in Hb. rewrite Hb in F. destruct F.
    + apply Forall_inv in F. apply Forall_inv in Ha. rewrite Ha in F. destruct F.
Qed.

Lemma forallb_of {A} (P : A -> Prop) (p : A -> bool) l : (forall x, P x -> p x = true) -> Forall P l -> forallb p l = true.
Proof. intros H F. apply forallb_forall. rewrite Forall_forall in F. auto. Qed.

Lemma equal_range_thirds {A} (key : A -> comparison) a b c :
  Forall (fun x => key x = Lt) a -> Forall (fun x => key x = Eq) b -> Forall (fun x => key x = Gt) c ->
  equal_range_by (a ++ b ++ c) key = Ok (length a, (length a + length b)%nat).
Proof.
  intros Ha Hb Hc. unfold equal_range_by.
  rewrite (partition_point_finds _ a (b ++ c)); cbn [bind].
  - rewrite app_length. replace (Nat.leb (length a) (length a + length (b ++ c))) with true by (symmetry; apply Nat.leb_le; lia).
    cbn [bind]. rewrite skipn_app_exact. rewrite (partition_point_finds _ b c); [reflexivity| |].
    + eapply forallb_of; [|exact Hb]. cbv beta. intros x ->. reflexivity.
    + eapply forallb_of; [|exact Hc]. cbv beta. intros x ->. reflexivity.
  - eapply forallb_of; [|exact Ha]. cbv beta. intros x ->. reflexivity.
  - rewrite forallb_app. apply andb_true_iff. split; (eapply forallb_of; [|eassumption]); cbv beta; intros x ->; reflexivity.
Qed.

Lemma iter_eq_by_spec {A B} (eq : A -> B -> bool) l : forall m, iter_eq_by eq l m = true <-> Forall2 (fun x y => eq x y = true) l m.
Proof.
  induction l as [|x l IH]; intros [|y m]; cbn [iter_eq_by]; split; intros H; try constructor; try discriminate; try solve [inversion H].
  - destruct (eq x y) eqn:E; [reflexivity|discriminate].
  - apply IH. destruct (eq x y); [exact H|discriminate].
  - inversion H; subst. rewrite H3. apply IH. assumption.
Qed.

(** ** The queue *)
Lemma op_run_reads {R} cs : forall (q q' : op_queue R) h, op_run q cs = Some (q', h) ->
  op_in_progress q' = Nat.eqb (running h (if op_in_progress q then 1 else 0)) 1 /\
  (running h (if op_in_progress q then 1 else 0) <= 1)%nat /\
  op_requested q' = pending h (op_requested q) /\
  last_op_result q' = last_result h (last_op_result q) /\
  map fst h = cs.
Proof.
  induction cs as [|[| |x] cs IH]; intros q q' h H; cbn [op_run] in H.
  - injection H as <- <-. cbn. destruct (op_in_progress q); auto.
  - destruct (op_run (request_op q) cs) as [[q1 a]|] eqn:E; [|discriminate]. injection H as <- <-.
    destruct (IH _ _ _ E) as (H1 & H2 & H3 & H4 & H5). cbn in *. rewrite H5. auto.
  - unfold should_start_op in H. destruct (op_in_progress q) eqn:P.
    + destruct (op_run q cs) as [[q1 a]|] eqn:E; [|discriminate]. injection H as <- <-.
      destruct (IH _ _ _ E) as (H1 & H2 & H3 & H4 & H5). rewrite P in *. cbn in *. rewrite H5. auto.
    + destruct (op_run _ cs) as [[q1 a]|] eqn:E; [|discriminate]. injection H as <- <-.
      destruct (IH _ _ _ E) as (H1 & H2 & H3 & H4 & H5). cbn in *. rewrite H5.
      destruct (op_requested q); cbn; auto.
  - unfold op_completed in H. destruct (op_in_progress q) eqn:P; cbn [assert_ bind] in H; [|discriminate].
    destruct (op_run _ cs) as [[q1 a]|] eqn:E; [|discriminate]. injection H as <- <-.
    destruct (IH _ _ _ E) as (H1 & H2 & H3 & H4 & H5). cbn in *. rewrite H5. auto.
Qed.

(** ** Markers *)
Lemma split_at_tlen a b : split_at (a ++ b) (tlen a) = Some (a, b).
Proof. apply split_at_app. Qed.
Lemma find_str_none p t : (forall a b, t <> a ++ p ++ b) -> find_str p t = None.
Proof.
  induction t as [|c t IH]; intros H; cbn [find_str].
  - destruct (starts_with [] p) eqn:E; [|reflexivity]. apply starts_with_spec in E as [r E]. exfalso. apply (H [] r). exact E.
  - destruct (starts_with (c :: t) p) eqn:E.
    + apply starts_with_spec in E as [r E]. exfalso. apply (H [] r). exact E.
    + rewrite IH; [reflexivity|]. intros a b Ht. apply (H (c :: a) b). cbn. rewrite Ht. reflexivity.
Qed.
(** the first occurrence *)
Lemma find_str_first p a b : (forall x y, a ++ removelast p <> x ++ p ++ y) -> p <> [] -> find_str p (a ++ p ++ b) = Some (tlen a).
Proof.
  intros H Hp. induction a as [|c a IH].
  - cbn [app tlen]. destruct p as [|x p]; [congruence|]. cbn [app find_str].
    assert (E : starts_with (x :: p ++ b) (x :: p) = true) by (apply (starts_with_app (x :: p) b)).
    rewrite E. reflexivity.
  - cbn [app find_str tlen]. destruct (starts_with (c :: a ++ p ++ b) p) eqn:E.
    + exfalso. apply starts_with_spec in E as [r E].
      assert (X : exists y, (c :: a) ++ removelast p = p ++ y).
      { assert (L : (length p <= length ((c :: a) ++ removelast p))%nat).
        { rewrite app_length. cbn [length]. pose proof (app_removelast_last 0 Hp) as Q.
          apply (f_equal (@length N)) in Q. rewrite app_length in Q. cbn in Q. lia. }
        pose proof (app_removelast_last 0 Hp) as Q.
        change (c :: a ++ p ++ b) with ((c :: a) ++ p ++ b) in E. rewrite Q in E at 1. rewrite <- app_assoc in E.
        rewrite app_assoc in E. exists (skipn (length p) ((c :: a) ++ removelast p)).
        assert (F : firstn (length p) (((c :: a) ++ removelast p) ++ [last p 0] ++ b) = p).
        { rewrite E. rewrite firstn_app, firstn_all, Nat.sub_diag. cbn. apply app_nil_r. }
        rewrite firstn_app in F. replace (length p - length ((c :: a) ++ removelast p))%nat with 0%nat in F by lia.
        cbn [firstn] in F. rewrite app_nil_r in F. rewrite <- (firstn_skipn (length p) ((c :: a) ++ removelast p)) at 1.
        rewrite F. reflexivity. }
      destruct X as [y X]. exact (H [] y X).
    + rewrite IH; [reflexivity|]. intros x y X. apply (H (c :: x) y). cbn [app]. rewrite X. reflexivity.
Qed.

(** ** Indentation *)
Lemma split_inclusive_concat t : concat (split_inclusive t) = t.
Proof.
  induction t as [|c t IH]; [reflexivity|]. cbn [split_inclusive]. destruct (c =? cLF) eqn:E.
  - cbn [concat app]. rewrite IH. reflexivity.
  - destruct (split_inclusive t) as [|l ls]; cbn [concat app] in *; rewrite <- IH; reflexivity.
Qed.
Lemma split_inclusive_nonempty t : Forall (fun l => l <> []) (split_inclusive t).
Proof.
  induction t as [|c t IH]; [constructor|]. cbn [split_inclusive]. destruct (c =? cLF) eqn:E.
  - constructor; [discriminate|exact IH].
  - destruct (split_inclusive t) as [|l ls]; constructor; try discriminate; [constructor|inversion IH; auto].
Qed.
Lemma split_inclusive_lines t : lines_with_ends t (split_inclusive t).
Proof.
  split; [apply split_inclusive_concat|].
  induction t as [|c t [IH1 IH2]]; cbn [split_inclusive].
  { split; [constructor|]. intros [|x a] l0 b H; discriminate. }
  destruct (c =? cLF) eqn:E.
  - apply N.eqb_eq in E. subst c. split.
    + constructor; [|exact IH1]. split; [discriminate|]. intros [|x [|x2 a]] b H; injection H; intros; subst; auto; discriminate.
    + intros [|y a] l b H Hb; injection H as <- H; [exists []; reflexivity|]. eapply IH2; eauto.
  - destruct (split_inclusive t) as [|l0 ls] eqn:S.
    + split.
      * constructor; [|constructor]. split; [discriminate|]. intros [|x [|x2 a]] b H; injection H; intros; subst; try discriminate; auto.
      * intros [|y [|y2 a]] l b H Hb; injection H; intros; subst; congruence.
    + split.
      * inversion IH1 as [|? ? [N1 N2] IH3]; subst. constructor; [|exact IH3]. split; [discriminate|].
        intros [|x a] b H; injection H as -> H; [rewrite N.eqb_refl in E; discriminate|]. eapply N2; exact H.
      * intros [|y a] l b H Hb; injection H as <- H.
        -- destruct (IH2 [] l0 b) as [l1 ->]; [rewrite H; reflexivity|exact Hb|]. exists (c :: l1). reflexivity.
        -- eapply (IH2 (l0 :: a)); [cbn; rewrite H; reflexivity|exact Hb].
Qed.

Lemma trim_start_split l : exists s, l = s ++ trim_start l /\ blank s /\
  (forall c r, trim_start l = c :: r -> is_white_space c = false).
Proof.
  induction l as [|c l IH]; cbn [trim_start].
  - exists []. split; [reflexivity|]. split; [constructor|]. discriminate.
  - destruct (is_white_space c) eqn:E.
    + destruct IH as (s & H1 & H2 & H3). exists (c :: s). split; [cbn; rewrite <- H1; reflexivity|].
      split; [constructor; auto|exact H3].
    + exists []. split; [reflexivity|]. split; [constructor|]. intros c' r H. injection H as <- _. exact E.
Qed.
Lemma line_indent_spec l : exists s, l = s ++ trim_start l /\ blank s /\ line_indent l = tlen s.
Proof.
  destruct (trim_start_split l) as (s & H1 & H2 & _). exists s. split; [exact H1|]. split; [exact H2|].
  unfold line_indent. rewrite H1 at 1. rewrite tlen_app. lia.
Qed.

Lemma plain_bytes s : plain_space s -> blank s -> tlen s = N.of_nat (length s).
Proof.
  induction s as [|c s IH]; intros P B; [reflexivity|]. inversion P as [|? ? P1 P2]; subst. inversion B as [|? ? B1 B2]; subst.
  cbn [tlen length]. rewrite IH by assumption. specialize (P1 B1). unfold utf8_len.
  replace (c <? 128) with true by lia. lia.
Qed.
Lemma plain_app a b : plain_space (a ++ b) <-> plain_space a /\ plain_space b.
Proof. apply Forall_app. Qed.

(** cutting [n] bytes off plain white space *)
Lemma cut_blank s r n : plain_space s -> blank s -> n <= tlen s ->
  exists s1 s2, s = s1 ++ s2 /\ tlen s1 = n /\ blank s1 /\ blank s2 /\ slice_from (s ++ r) n = Ok (s2 ++ r).
Proof.
  intros P B H. rewrite (plain_bytes s P B) in H.
  exists (firstn (N.to_nat n) s), (skipn (N.to_nat n) s).
  pose proof (firstn_skipn (N.to_nat n) s) as E.
  assert (B' : blank (firstn (N.to_nat n) s ++ skipn (N.to_nat n) s)) by (rewrite E; exact B).
  assert (P' : plain_space (firstn (N.to_nat n) s ++ skipn (N.to_nat n) s)) by (rewrite E; exact P).
  apply Forall_app in B' as [B1 B2]. apply plain_app in P' as [P1 P2].
  assert (L : tlen (firstn (N.to_nat n) s) = n).
  { rewrite plain_bytes by assumption. rewrite firstn_length_le by lia. lia. }
  split; [symmetry; exact E|]. split; [exact L|]. split; [exact B1|]. split; [exact B2|].
  unfold slice_from. rewrite <- E at 1. rewrite <- app_assoc. rewrite <- L at 3. rewrite split_at_app. reflexivity.
Qed.

Lemma trim_spaces_split l : exists s, l = s ++ trim_spaces l /\ Forall (fun c => c = 32) s.
Proof.
  induction l as [|c l (s & E & F)]; cbn [trim_spaces]; [exists []; auto|].
  destruct (c =? 32) eqn:E32; [|exists []; auto]. apply N.eqb_eq in E32. subst c.
  exists (32 :: s). cbn. rewrite <- E. auto.
Qed.

Lemma blank_line_spec l : is_blank_line l = true <-> blank l.
Proof.
  unfold is_blank_line. induction l as [|c l IH]; cbn [trim_start]; [split; [constructor|reflexivity]|].
  destruct (is_white_space c) eqn:E.
  - rewrite IH. split; [constructor; auto|intros H; inversion H; auto].
  - split; [discriminate|intros H; inversion H; congruence].
Qed.

(** one line: blanks are removed from its front; [n] bytes of them unless the line is blank *)
Lemma trim_line_ok n l : plain_space l -> (~ blank l -> n <= line_indent l) ->
  exists r, trim_line n l = Ok r /\ (exists s, l = s ++ r /\ blank s) /\ (~ blank l -> indented n l r) /\
    (blank l -> n < tlen l -> indented n l r) /\ (blank l -> tlen l <= n -> exists k, l = repeat 32 k ++ r).
Proof.
  intros P H. unfold trim_line. destruct (tlen l <=? n) eqn:L.
  - destruct (trim_spaces_split l) as (s & E & F). exists (trim_spaces l). split; [reflexivity|].
    assert (Nb : ~ blank l -> False).
    { intros Nb. specialize (H Nb). destruct (trim_start_split l) as (s' & E' & B' & _).
      destruct (trim_start l) as [|c r] eqn:T.
      - apply Nb. rewrite app_nil_r in E'. rewrite E'. exact B'.
      - unfold line_indent in H. rewrite T in H.
        assert (tlen l = tlen s' + tlen (c :: r)) by (rewrite E' at 1; apply tlen_app).
        cbn [tlen] in *. pose proof (utf8_len_pos c). lia. }
    split; [|split; [|split]].
    + exists s. split; [exact E|]. eapply Forall_impl; [|exact F]. intros c ->. reflexivity.
    + tauto.
    + lia.
    + intros _ _. exists (length s). rewrite E at 1. f_equal. clear - F. induction F as [|c s -> _ IH]; [reflexivity|].
      cbn [length repeat]. rewrite <- IH. reflexivity.
  - destruct (line_indent_spec l) as (s & E & B & I).
    assert (Ps : plain_space s) by (rewrite E in P; apply plain_app in P; apply P).
    destruct (blank_line_spec l) as [_ BL].
    assert (Hn : n <= tlen s).
    { destruct (is_blank_line l) eqn:D.
      - unfold is_blank_line in D. destruct (trim_start l) eqn:T; [|discriminate]. rewrite app_nil_r in E. rewrite <- E. lia.
      - rewrite <- I. apply H. intros X. specialize (BL X). congruence. }
    destruct (cut_blank s (trim_start l) n Ps B Hn) as (s1 & s2 & E1 & L1 & B1 & B2 & R).
    rewrite <- E in R. exists (s2 ++ trim_start l). split; [exact R|].
    assert (X : l = s1 ++ s2 ++ trim_start l) by (rewrite app_assoc, <- E1; exact E).
    split; [exists s1; auto|]. split; [intros _; exists s1; auto|]. split; [intros _ _; exists s1; auto|]. lia.
Qed.

Lemma fold_min_le l : forall x, fold_left N.min l x <= x /\ (forall y, In y l -> fold_left N.min l x <= y) /\
  (fold_left N.min l x = x \/ In (fold_left N.min l x) l).
Proof.
  induction l as [|z l IH]; intros x; cbn [fold_left].
  - split; [lia|]. split; [intros y []|auto].
  - destruct (IH (N.min x z)) as (H1 & H2 & H3). split; [lia|]. split.
    + intros y [<-|Hy]; [lia|auto].
    + destruct H3 as [H3|H3]; [|right; right; exact H3]. rewrite H3.
      destruct (N.min_spec x z) as [[_ ->]|[_ ->]]; [auto|right; left; reflexivity].
Qed.
Lemma min_list_spec l : (l = [] /\ min_list l = 0) \/ (In (min_list l) l /\ forall y, In y l -> min_list l <= y).
Proof.
  destruct l as [|x l]; [auto|]. right. cbn [min_list]. destruct (fold_min_le l x) as (H1 & H2 & H3). split.
  - destruct H3 as [->|H3]; [left; reflexivity|right; exact H3].
  - intros y [<-|Hy]; auto.
Qed.

Lemma map_res_ok {A B} (f : A -> res B) (P : A -> B -> Prop) l : (forall x, In x l -> exists y, f x = Ok y /\ P x y) ->
  exists ys, map_res f l = Ok ys /\ Forall2 P l ys.
Proof.
  induction l as [|x l IH]; intros H; [exists []; split; [reflexivity|constructor]|].
  destruct (H x) as (y & E & Py); [left; reflexivity|]. destruct IH as (ys & E2 & F); [intros z Hz; apply H; right; exact Hz|].
  exists (y :: ys). cbn [map_res]. rewrite E. cbn [bind]. rewrite E2. split; [reflexivity|]. constructor; assumption.
Qed.
