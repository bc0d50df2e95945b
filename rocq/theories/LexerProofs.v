(** Proofs about Lexer.v *)
From Coq Require Import String.
From Verif Require Import Base BaseProofs Kinds KindsProofs Lexer LexSpec.
Local Open Scope N_scope.

Arguments str : simpl never.
Ltac lits :=
  change (`"//") with [47; 47] in *; change (`"0x") with [48; 120] in *;
  change (`"u8") with [117; 56] in *; change (`"u64") with [117; 54; 52] in *;
  change (`"u128") with [117; 49; 50; 56] in *.

(** ** Spans *)
Fixpoint span (p : char -> bool) (t : text) : text * text :=
  match t with
  | [] => ([], [])
  | c :: r => if p c then let (a, b) := span p r in (c :: a, b) else ([], t)
  end.
Definition stops (p : char -> bool) (t : text) : Prop :=
  match t with [] => True | c :: _ => p c = false end.

Lemma span_spec p t a b : span p t = (a, b) ->
  t = a ++ b /\ Forall (fun c => p c = true) a /\ stops p b.
Proof.
  revert a b; induction t as [|c t IH]; intros a b; cbn [span].
  - intros H; injection H as <- <-. repeat split; constructor.
  - destruct (p c) eqn:E.
    + destruct (span p t) as [a' b'] eqn:E2. intros H; injection H as <- <-.
      destruct (IH a' b' eq_refl) as (-> & Ha & Hb). repeat split; auto.
    + intros H; injection H as <- <-. repeat split; auto. 
Qed.

(** the maximal run is at least as long as any other run *)
Lemma run_le p a b a' b' : a ++ b = a' ++ b' ->
  Forall (fun c => p c = true) a' -> stops p b -> (length a' <= length a)%nat.
Proof.
  revert a'; induction a as [|x a IH]; intros a' E Fa' Hb; cbn [app] in E.
  - destruct a' as [|y a']; [cbn; lia|]. cbn [app] in E. subst b. inversion Fa'; subst.
    cbn in Hb. congruence.
  - destruct a' as [|y a']; [cbn; lia|]. cbn [app] in E. injection E as <- E.
    inversion Fa'; subst. cbn [length]. apply le_n_S. eauto.
Qed.

Lemma tlen_ascii t : ascii t -> tlen t = N.of_nat (length t).
Proof.
  induction 1 as [|c t Hc Ht IH]; cbn [tlen length]; [reflexivity|].
  unfold utf8_len. destruct (c <? 128) eqn:E; [|lia]. lia.
Qed.

Lemma position_span p t a b : span p t = (a, b) ->
  position (fun c => negb (p c)) t = match b with [] => None | _ => Some (N.of_nat (length a)) end.
Proof.
  revert a b; induction t as [|c t IH]; intros a b; cbn [span position].
  - intros H; injection H as <- <-. reflexivity.
  - destruct (p c) eqn:E; cbn [negb].
    + destruct (span p t) as [a' b'] eqn:E2. intros H; injection H as <- <-.
      rewrite (IH a' b' eq_refl). destruct b'; cbn [option_map length]; [reflexivity|f_equal; lia].
    + intros H; injection H as <- <-. reflexivity.
Qed.

Lemma find_byte_span p t a b : span p t = (a, b) ->
  find_byte (fun c => negb (p c)) t = match b with [] => None | _ => Some (tlen a) end.
Proof.
  revert a b; induction t as [|c t IH]; intros a b; cbn [span find_byte].
  - intros H; injection H as <- <-. reflexivity.
  - destruct (p c) eqn:E; cbn [negb].
    + destruct (span p t) as [a' b'] eqn:E2. intros H; injection H as <- <-.
      rewrite (IH a' b' eq_refl). destruct b'; cbn [option_map tlen]; reflexivity.
    + intros H; injection H as <- <-. reflexivity.
Qed.

Lemma find_byte_ext p q t : (forall c, p c = q c) -> find_byte p t = find_byte q t.
Proof. intros H; induction t as [|c t IH]; cbn; [reflexivity|]. rewrite H, IH. reflexivity. Qed.

Lemma space_run_span t a b : span is_space t = (a, b) -> space_run t = N.of_nat (length a).
Proof.
  revert a b; induction t as [|c t IH]; intros a b; cbn [span space_run].
  - intros H; injection H as <- <-. reflexivity.
  - destruct (is_space c) eqn:E.
    + destruct (span is_space t) as [a' b'] eqn:E2. intros H; injection H as <- <-.
      rewrite (IH a' b' eq_refl). cbn [length]; lia.
    + intros H; injection H as <- <-. reflexivity.
Qed.

(** ** Classes *)
Lemma is_digit_spec c : is_digit c = true <-> digit c.
Proof. unfold is_digit, in_range, digit. lia. Qed.
Lemma is_hex_spec c : is_hex_digit c = true <-> hex_digit c.
Proof. unfold is_hex_digit, is_digit, in_range, hex_digit, digit. lia. Qed.
Lemma is_name_start_spec c : is_name_start c = true <-> letter_ c.
Proof. unfold is_name_start, in_range, letter_. lia. Qed.
Lemma is_name_char_spec c : is_name_char c = true <-> name_char c.
Proof. unfold is_name_char, is_name_start, is_digit, in_range, name_char, letter_, digit. lia. Qed.
Lemma is_space_spec c : is_space c = true <-> blank c.
Proof. unfold is_space, blank. lia. Qed.

Lemma Forall_iff {A} (P Q : A -> Prop) l : (forall x, P x <-> Q x) -> Forall P l <-> Forall Q l.
Proof. intros H. split; apply Forall_impl; intros a; apply H. Qed.

Lemma ascii_of (P : char -> Prop) l : (forall c, P c -> c < 128) -> Forall P l -> ascii l.
Proof. intros H. apply Forall_impl. exact H. Qed.
Lemma ascii_app a b : ascii a -> ascii b -> ascii (a ++ b).
Proof. unfold ascii. intros; apply Forall_app; auto. Qed.
Lemma ascii_suffix s : In s suffixes -> ascii s.
Proof.
  cbn [suffixes In]. intros [<-|[<-|[<-|[<-|[]]]]]; repeat constructor; reflexivity.
Qed.

(** [unwrap_or (position ..) (tlen t)] for an ASCII class *)
Lemma position_len p t a b : span p t = (a, b) -> (forall c, p c = true -> c < 128) ->
  unwrap_or (position (fun c => negb (p c)) t) (tlen t) = tlen a.
Proof.
  intros E Hp. rewrite (position_span _ _ _ _ E).
  destruct (span_spec _ _ _ _ E) as (-> & Fa & _).
  assert (A : ascii a) by (apply (ascii_of _ _ Hp Fa)).
  rewrite (tlen_ascii a A).
  destruct b; cbn [unwrap_or]; [|reflexivity].
  rewrite app_nil_r. apply tlen_ascii; exact A.
Qed.
Lemma find_byte_len p t a b : span p t = (a, b) ->
  unwrap_or (find_byte (fun c => negb (p c)) t) (tlen t) = tlen a.
Proof.
  intros E. rewrite (find_byte_span _ _ _ _ E).
  destruct (span_spec _ _ _ _ E) as (-> & Fa & _).
  destruct b; cbn [unwrap_or]; [|reflexivity]. rewrite app_nil_r. reflexivity.
Qed.

Lemma slice_from_app a b : slice_from (a ++ b) (tlen a) = Ok b.
Proof. unfold slice_from. rewrite split_at_app. reflexivity. Qed.
Lemma slice_to_app a b : slice_to (a ++ b) (tlen a) = Ok a.
Proof. unfold slice_to. rewrite split_at_app. reflexivity. Qed.

(** ** Numbers *)
Lemma starts_with_app a b : starts_with (a ++ b) a = true.
Proof. apply starts_with_spec. eauto. Qed.

Lemma number_suffix t ds rest :
  t = ds ++ rest ->
  exists suf rest', In suf suffixes /\ rest = suf ++ rest' /\
    get_number_maybe_with_suffix t (tlen ds) = Ok (INTEGER_NUMBER, tlen (ds ++ suf)) /\
    forall suf' rest'', In suf' suffixes -> rest = suf' ++ rest'' -> (length suf' <= length suf)%nat.
Proof.
  intros ->. unfold get_number_maybe_with_suffix. rewrite slice_from_app. cbn [bind].
  assert (G : forall suf rest', rest = suf ++ rest' ->
     suf = `"u8" \/ suf = `"u64" \/ suf = `"u128" ->
     forall suf' rest'', In suf' suffixes -> rest = suf' ++ rest'' -> (length suf' <= length suf)%nat).
  { intros suf rest' -> Hs suf' rest'' Hin. cbn [suffixes In] in Hin.
    destruct Hs as [->|[->| ->]], Hin as [<-|[<-|[<-|[<-|[]]]]]; cbn; intros E; try lia;
      injection E; intros; try discriminate; try lia. }
  destruct (starts_with rest (`"u8")) eqn:E1.
  { apply starts_with_spec in E1 as [r E1]. exists (`"u8"), r. split; [cbn; auto|].
    split; [exact E1|]. split; [rewrite tlen_app; reflexivity|]. eapply G; eauto. }
  destruct (starts_with rest (`"u64")) eqn:E2.
  { apply starts_with_spec in E2 as [r E2]. exists (`"u64"), r. split; [cbn; auto|].
    split; [exact E2|]. split; [rewrite tlen_app; reflexivity|]. eapply G; eauto. }
  destruct (starts_with rest (`"u128")) eqn:E3.
  { apply starts_with_spec in E3 as [r E3]. exists (`"u128"), r. split; [cbn; auto|].
    split; [exact E3|]. split; [rewrite tlen_app; reflexivity|]. eapply G; eauto. }
  exists [], rest. split; [cbn; auto|]. split; [reflexivity|].
  split; [rewrite app_nil_r; reflexivity|].
  intros suf' rest'' Hin E. subst rest. cbn [suffixes In] in Hin.
  destruct Hin as [<-|[<-|[<-|[<-|[]]]]]; [cbn; lia| | |].
  - rewrite starts_with_app in E1. discriminate.
  - rewrite starts_with_app in E2. discriminate.
  - rewrite starts_with_app in E3. discriminate.
Qed.

(** ** Strings *)
Lemma get_string_len_spec t pos q : ~ In 10 t -> get_string_len pos t = Some q ->
  exists b r, t = b ++ 34 :: r /\ string_body b /\ q = pos + N.of_nat (length b).
Proof.
  intros Hnl.
  assert (G : forall n t pos q, (length t <= n)%nat -> ~ In 10 t -> get_string_len pos t = Some q ->
    exists b r, t = b ++ 34 :: r /\ string_body b /\ q = pos + N.of_nat (length b)).
  { clear. induction n as [|n IH]; intros t pos q Hn Hnl H.
    - destruct t; [discriminate|cbn in Hn; lia].
    - destruct t as [|c t]; [discriminate|]. cbn [get_string_len length] in *.
      destruct (c =? 92) eqn:E1.
      + destruct t as [|d t]; [discriminate|].
        apply IH in H as (b & r & -> & Hb & ->); [|cbn in *; lia|cbn in *; tauto].
        exists (92 :: d :: b), r. replace c with 92 by lia. split; [reflexivity|].
        split; [constructor; [intros ->; apply Hnl; cbn; auto|exact Hb]|]. cbn [length]; lia.
      + destruct (c =? 34) eqn:E2.
        * injection H as <-. exists [], t. replace c with 34 by lia.
          split; [reflexivity|]. split; [constructor|]. cbn [length]; lia.
        * apply IH in H as (b & r & -> & Hb & ->); [|cbn in *; lia|cbn in *; tauto].
          exists (c :: b), r. split; [reflexivity|]. split; [constructor; auto; try lia|cbn [length]; lia].
          intros ->. apply Hnl. cbn; auto. }
  eapply G; eauto.
Qed.

Lemma string_body_unique b r b' r' : string_body b -> string_body b' ->
  b ++ 34 :: r = b' ++ 34 :: r' -> b = b'.
Proof.
  intros H; revert r b' r'. induction H as [|c b Hc1 Hc2 Hc3 Hb IH|c b Hc Hb IH]; intros r b' r' H' E.
  - destruct H' as [|c b'|c b']; cbn [app] in E; [reflexivity|injection E; congruence|discriminate].
  - destruct H' as [|c' b' ? ? ? Hb'|c' b' ? Hb']; cbn [app] in E; injection E as E1 E2; try congruence.
    subst c'. f_equal. eauto.
  - destruct H' as [|c' b' ? ? ? Hb'|c' b' ? Hb']; cbn [app] in E; [discriminate|injection E; congruence|].
    injection E as -> E2. do 2 f_equal. eauto.
Qed.

Lemma until_lf_spec t : exists r, t = until_lf t ++ r /\ ~ In 10 (until_lf t) /\
  (r = [] \/ exists r', r = 10 :: r').
Proof.
  induction t as [|c t (r & E & Hn & Hr)]; cbn [until_lf].
  - exists []. repeat split; auto.
  - unfold cLF. destruct (c =? 10) eqn:Ec.
    + exists (c :: t). replace c with 10 by lia. repeat split; auto. right; eauto.
    + exists r. cbn [app]. rewrite <- E. repeat split; auto. cbn. intros [->|H]; [lia|auto].
Qed.

Lemma first_line_prefix t : exists r, t = first_line t ++ r /\ ~ In 10 (first_line t).
Proof.
  destruct (until_lf_spec t) as (r & E & Hn & _). unfold first_line.
  destruct (rev (until_lf t)) as [|c l] eqn:R; [eauto|].
  destruct (c =? cCR); [|eauto].
  assert (E2 : until_lf t = rev l ++ [c]) by (rewrite <- (rev_involutive (until_lf t)), R; reflexivity).
  exists (c :: r). split.
  - rewrite E at 1. rewrite E2, <- app_assoc. reflexivity.
  - rewrite E2 in Hn. intros H. apply Hn. apply in_app_iff. auto.
Qed.

(** ** What a lexeme can start with *)
Definition number_form (w : text) : Prop :=
  (exists ds suf, w = ds ++ suf /\ ds <> [] /\ Forall digit ds /\ In suf suffixes) \/
  (exists hs suf, w = `"0x" ++ hs ++ suf /\ hs ++ suf <> [] /\ Forall hex_digit hs /\ In suf suffixes).
Definition string_form (w : text) : Prop :=
  exists p b, (p = 120 \/ p = 98) /\ string_body b /\ w = p :: 34 :: b ++ [34].
Definition comment_form (w : text) : Prop :=
  exists b, ~ In 10 b /\ (w = `"//" ++ b ++ [10] \/ w = `"//" ++ b).

Definition not_class (c : char) : Prop := ~ blank c /\ ~ digit c /\ ~ letter_ c.

Lemma punct_first w k : In (w, k) puncts -> exists c r, w = c :: r /\ not_class c.
Proof.
  assert (T : forallb (fun p => match fst p with
      | c :: _ => negb (is_space c) && negb (is_digit c) && negb (is_name_start c)
      | [] => false end) puncts = true) by (vm_compute; reflexivity).
  rewrite forallb_forall in T. intros H. specialize (T _ H). cbn [fst] in T.
  destruct w as [|c r]; [discriminate|]. exists c, r. split; [reflexivity|].
  unfold not_class. rewrite <- is_space_spec, <- is_digit_spec, <- is_name_start_spec.
  destruct (is_space c), (is_digit c), (is_name_start c); cbn in T; try discriminate.
  repeat split; discriminate.
Qed.

Lemma keyword_name w k : In (w, k) keywords -> exists c r, w = c :: r /\ letter_ c /\ Forall name_char w.
Proof.
  assert (T : forallb (fun p => match fst p with
      | c :: _ => is_name_start c && forallb is_name_char (fst p)
      | [] => false end) keywords = true) by (vm_compute; reflexivity).
  rewrite forallb_forall in T. intros H. specialize (T _ H). cbn [fst] in T.
  destruct w as [|c r]; [discriminate|]. exists c, r. split; [reflexivity|].
  apply andb_true_iff in T as [T1 T2]. split; [apply is_name_start_spec; exact T1|].
  apply Forall_forall. rewrite forallb_forall in T2. intros x Hx.
  apply is_name_char_spec. auto.
Qed.

Inductive first_class (k : kind) (w : text) (c : char) : Prop :=
| fc_blank : blank c -> Forall blank w -> first_class k w c
| fc_digit : digit c -> number_form w -> first_class k w c
| fc_string : letter_ c -> string_form w -> first_class k w c
| fc_name : letter_ c -> Forall name_char w -> first_class k w c
| fc_comment : c = 47 -> comment_form w -> first_class k w c
| fc_punct : not_class c -> In (w, k) puncts -> first_class k w c.

Lemma lexeme_first k w : lexeme k w -> exists c r, w = c :: r /\ first_class k w c.
Proof.
  intros H. destruct H as [w Hw Fw|b Hb|b Hb|ds suf Hd Fd Hs|hs suf Hh Fh Hs|p b Hp Hb|w k Hk|c r Hc Fr Hk|w k Hk].
  - destruct w as [|c w]; [congruence|]. exists c, w. split; [reflexivity|]. apply fc_blank; auto.
    inversion Fw; auto.
  - exists 47, (47 :: b ++ [10]). split; [reflexivity|]. apply fc_comment; auto. exists b; auto.
  - exists 47, (47 :: b). split; [reflexivity|]. apply fc_comment; auto. exists b; auto.
  - destruct ds as [|c ds]; [congruence|]. exists c, (ds ++ suf). split; [reflexivity|].
    apply fc_digit; [inversion Fd; auto|]. left. exists (c :: ds), suf. auto.
  - exists 48, (120 :: hs ++ suf). split; [reflexivity|]. apply fc_digit; [unfold digit; lia|].
    right. exists hs, suf. auto.
  - exists p, (34 :: b ++ [34]). split; [reflexivity|]. apply fc_string; [unfold letter_; lia|].
    exists p, b. auto.
  - destruct (keyword_name _ _ Hk) as (c & r & -> & Hc & Hr). exists c, r. split; [reflexivity|].
    apply fc_name; auto.
  - exists c, r. split; [reflexivity|]. apply fc_name; auto. constructor; [left; auto|auto].
  - destruct (punct_first _ _ Hk) as (c & r & -> & Hc). exists c, r. split; [reflexivity|].
    apply fc_punct; auto.
Qed.

Ltac classes := unfold not_class, name_char, blank, digit, letter_ in *; lia.

Definition maximal (t w : text) : Prop :=
  forall k' w' rest', t = w' ++ rest' -> lexeme k' w' -> (length w' <= length w)%nat.

Lemma max_blank a b : stops is_space b -> Forall blank a -> a <> [] -> maximal (a ++ b) a.
Proof.
  intros Hb Ha Hn k' w' rest' E H. destruct (lexeme_first _ _ H) as (c & r & -> & F).
  destruct a as [|x a]; [congruence|]. cbn [app] in E. injection E as -> E.
  assert (Hx : blank c) by (inversion Ha; auto).
  destruct F as [_ F| | | | |]; try classes.
  apply (run_le is_space (c :: a) b (c :: r) rest'); [cbn; congruence| |exact Hb].
  apply (Forall_iff _ _ _ is_space_spec). exact F.
Qed.

Lemma max_comment c r : c = 47 -> forall w,
  comment_form w -> (exists rest, c :: r = w ++ rest) ->
  (exists b, w = `"//" ++ b ++ [10]) \/ w = c :: r ->
  maximal (c :: r) w.
Proof.
  unfold comment_form. lits.
  intros -> w Hw [rest E] Hend k' w' rest' E' H.
  destruct Hend as [[b ->] | ->].
  2:{ rewrite E', app_length. lia. }
  assert (Hb : ~ In 10 b).
  { destruct Hw as (b' & Hb' & [Eb|Eb]); cbn [app] in Eb; injection Eb as Eb.
    - apply app_inj_tail in Eb as [-> _]. exact Hb'.
    - subst b'. exfalso. apply Hb'. apply in_app_iff. cbn. auto. }
  destruct (lexeme_first _ _ H) as (c & r' & -> & F). cbn [app] in E'. injection E' as <- E'.
  destruct F as [F _|F _|F _|F _|_ F|_ F]; try classes.
  - destruct F as (b' & Hb' & F). lits. cbn [app] in *. injection E as E.
    assert (E2 : exists x, (b ++ [10]) ++ rest = b' ++ x /\ (length r' <= S (S (length b')))%nat).
    { destruct F as [F|F]; cbn [app] in F; injection F as F; subst r'.
      - exists (10 :: rest'). split.
        + rewrite E in E'. cbn [app] in E'. injection E' as E'. rewrite E', <- app_assoc. reflexivity.
        + cbn [length]. rewrite app_length. cbn. lia.
      - exists rest'. split.
        + rewrite E in E'. cbn [app] in E'. injection E' as E'. exact E'.
        + cbn [length]. lia. }
    destruct E2 as (x & E2 & L). rewrite <- app_assoc in E2.
    cbn [length]. rewrite app_length. cbn [length].
    assert (Lb : (length b' <= length b)%nat).
    { apply (run_le (fun ch => negb (ch =? 10)) b ([10] ++ rest) b' x); [exact E2| |reflexivity].
      apply Forall_forall. intros ch Hch. destruct (ch =? 10) eqn:Ech; [|reflexivity].
      exfalso. apply Hb'. replace 10 with ch by lia. exact Hch. }
    lia.
  - cbn [app length]. rewrite app_length. cbn [length].
    assert (T : forallb (fun p => match fst p with 47 :: x => Nat.leb (length x) 0 | _ => true end) puncts = true)
      by (vm_compute; reflexivity).
    rewrite forallb_forall in T. specialize (T _ F). cbn [fst] in T. lia.
Qed.

(** ** Numbers are maximal *)
Lemma run_suffix p a b a' suf suf' rest' :
  p 117 = false ->
  Forall (fun c => p c = true) a -> stops p b -> Forall (fun c => p c = true) a' ->
  (forall s r, In s suffixes -> b = s ++ r -> (length s <= length suf)%nat) ->
  In suf' suffixes -> a ++ b = a' ++ suf' ++ rest' ->
  (length (a' ++ suf') <= length (a ++ suf))%nat.
Proof.
  intros Hu Fa Hb Fa' Hmax Hin E. rewrite !app_length.
  pose proof (run_le p _ _ _ _ E Fa' Hb) as L.
  destruct (Nat.eq_dec (length a') (length a)) as [El|El].
  - assert (E2 : a' = a /\ suf' ++ rest' = b).
    { clear -E El. revert a E El. induction a' as [|x a' IH]; intros [|y a] E El; try discriminate.
      - auto.
      - cbn [app] in E. injection E as <- E. cbn in El. destruct (IH a E) as [-> ->]; [lia|auto]. }
    destruct E2 as [-> E2]. specialize (Hmax _ _ Hin (eq_sym E2)). lia.
  - assert (Hs : suf' = []).
    { assert (S1 : exists x a2, a = a' ++ x :: a2).
      { clear -E El L. assert (L2 : (length a' < length a)%nat) by lia. clear El L.
        revert a E L2. induction a' as [|x a' IH]; intros [|y a] E L2; cbn in L2; try lia.
        - exists y, a. reflexivity.
        - cbn [app] in E. injection E as <- E. destruct (IH a E) as (z & a2 & ->); [lia|].
          exists z, a2. reflexivity. }
      destruct S1 as (x & a2 & ->). apply Forall_app in Fa as [_ Fa]. inversion Fa; subst.
      rewrite <- app_assoc in E. apply app_inv_head in E. cbn [app] in E.
      cbn [suffixes In] in Hin. destruct Hin as [<-|[<-|[<-|[<-|[]]]]]; [reflexivity| | |];
        exfalso; lits; cbn [app] in E; injection E as -> _; congruence. }
    subst suf'. cbn [length]. lia.
Qed.

Lemma dec_in_hex r : forall ds suf rest', ds <> [] -> Forall digit ds -> In suf suffixes ->
  [48; 120] ++ r = (ds ++ suf) ++ rest' -> (length (ds ++ suf) <= 1)%nat.
Proof.
  intros ds suf rest' Hn Fd Hin E.
  destruct ds as [|d ds]; [congruence|]. cbn [app] in E. injection E as <- E.
  destruct ds as [|d ds].
  - cbn [app] in *. cbn [suffixes In] in Hin.
    destruct Hin as [<-|[<-|[<-|[<-|[]]]]]; [cbn; lia| | |]; discriminate E.
  - cbn [app] in E. injection E as <- E. inversion Fd as [|? ? _ Fd2]; subst. inversion Fd2; subst.
    classes.
Qed.

Lemma max_dec ds b suf : ds <> [] -> Forall digit ds -> stops is_digit b ->
  (forall s r, In s suffixes -> b = s ++ r -> (length s <= length suf)%nat) ->
  ~ (exists r, ds ++ b = [48; 120] ++ r /\ r <> []) ->
  maximal (ds ++ b) (ds ++ suf).
Proof.
  intros Hn Fd Hb Hmax Hhex k' w' rest' E H.
  destruct (lexeme_first _ _ H) as (c & r & -> & F).
  assert (Hc : digit c).
  { destruct ds as [|d ds]; [congruence|]. cbn [app] in E. injection E as -> _. inversion Fd; auto. }
  destruct F as [F _|_ F|F _|F _|F _|F _]; try classes.
  destruct F as [(ds' & suf' & Ew & _ & Fd' & Hs')|(hs & suf' & Ew & Hne & _ & _)].
  - rewrite Ew in E |- *. rewrite <- app_assoc in E.
    apply (run_suffix is_digit ds b ds' suf suf' rest'); auto.
    + apply (Forall_iff _ _ _ is_digit_spec). exact Fd.
    + apply (Forall_iff _ _ _ is_digit_spec). exact Fd'.
  - exfalso. apply Hhex. exists ((hs ++ suf') ++ rest'). lits. rewrite E, Ew. split; [reflexivity|].
    destruct (hs ++ suf'); [congruence|discriminate].
Qed.

Lemma max_hex hs b suf w : Forall hex_digit hs -> stops is_hex_digit b ->
  (forall s r, In s suffixes -> b = s ++ r -> (length s <= length suf)%nat) ->
  (hs ++ suf = [] /\ w = [48] \/ w = [48; 120] ++ hs ++ suf) ->
  maximal ([48; 120] ++ hs ++ b) w.
Proof.
  intros Fh Hb Hmax Hw k' w' rest' E H.
  destruct (lexeme_first _ _ H) as (c & r & -> & F).
  assert (Hc : digit c) by (cbn [app] in E; injection E as <- _; classes).
  destruct F as [F _|_ F|F _|F _|F _|F _]; try classes.
  assert (L1 : (1 <= length w)%nat) by (destruct Hw as [[_ ->] | ->]; cbn; lia).
  destruct F as [(ds' & suf' & Ew & Hn' & Fd' & Hs')|(hs' & suf' & Ew & Hne & Fh' & Hs')].
  - rewrite Ew in E |- *. pose proof (dec_in_hex _ _ _ _ Hn' Fd' Hs' E). lia.
  - lits. rewrite Ew in E |- *. cbn [app] in E. injection E as E. rewrite <- app_assoc in E.
    assert (L : (length (hs' ++ suf') <= length (hs ++ suf))%nat).
    { apply (run_suffix is_hex_digit hs b hs' suf suf' rest'); auto.
      - apply (Forall_iff _ _ _ is_hex_spec). exact Fh.
      - apply (Forall_iff _ _ _ is_hex_spec). exact Fh'. }
    destruct Hw as [[Z ->] | ->].
    + rewrite Z in L. destruct (hs' ++ suf'); [congruence|cbn in L; lia].
    + cbn [app length]. lia.
Qed.

(** ** Names and strings *)
Lemma max_name c a b : letter_ c -> Forall name_char a -> stops is_name_char b ->
  ~ (exists p r, (p = 120 \/ p = 98) /\ (c :: a) ++ b = p :: 34 :: r) ->
  maximal ((c :: a) ++ b) (c :: a).
Proof.
  intros Hc Fa Hb Hs k' w' rest' E H.
  destruct (lexeme_first _ _ H) as (c' & r & -> & F). pose proof E as E0.
  cbn [app] in E. injection E as <- E.
  destruct F as [F _|F _|_ F|_ F|F _|F _]; try classes.
  - exfalso. apply Hs. destruct F as (p & b' & Hp & _ & F). exists p, ((b' ++ [34]) ++ rest').
    split; [exact Hp|]. rewrite E0, F. reflexivity.
  - apply (run_le is_name_char (c :: a) b (c :: r) rest'); [exact E0| |exact Hb].
    apply (Forall_iff _ _ _ is_name_char_spec). exact F.
Qed.

Lemma max_string p b r : p = 120 \/ p = 98 -> string_body b ->
  maximal (p :: 34 :: b ++ 34 :: r) (p :: 34 :: b ++ [34]).
Proof.
  intros Hp Hb k' w' rest' E H.
  destruct (lexeme_first _ _ H) as (c' & r' & -> & F).
  cbn [app] in E. injection E as <- E.
  destruct F as [F _|F _|_ F|_ F|F _|F _]; try classes.
  - destruct F as (p' & b' & Hp' & Hb' & F). injection F as <- ->. cbn [app] in E.
    injection E as E. rewrite <- app_assoc in E. cbn [app] in E.
    rewrite (string_body_unique _ _ _ _ Hb Hb' E). lia.
  - destruct r' as [|x r']; [cbn; lia|]. cbn [app] in E. injection E as <- E.
    inversion F as [|? ? _ F2]; subst. inversion F2; subst. classes.
Qed.

(** ** Punctuation: a prefix of the text that is in the table and that no
    longer entry of the table extends *)
Lemma max_punct c r w : not_class c -> c <> 47 \/ (exists d r', r = d :: r' /\ d <> 47) \/ r = [] ->
  (forall k' w' rest', In (w', k') puncts -> c :: r = w' ++ rest' -> (length w' <= length w)%nat) ->
  maximal (c :: r) w.
Proof.
  intros Hc Hcom Hmax k' w' rest' E H.
  destruct (lexeme_first _ _ H) as (c' & r' & -> & F). pose proof E as E0.
  cbn [app] in E. injection E as <- E.
  destruct F as [F _|F _|F _|F _|F0 F|_ F]; try classes.
  - exfalso. destruct F as (b & _ & F). lits.
    destruct F as [F|F]; cbn [app] in F; injection F as _ F; subst r'; cbn [app] in E;
      (destruct Hcom as [Hcom|[(d & r'' & -> & Hd)|Hcom]]; [lia|injection E; lia|subst r; discriminate]).
  - eapply Hmax; eauto.
Qed.

(** ** The token found is the longest lexeme *)
Definition tok_spec (t : text) (k : kind) (n : N) : Prop :=
  exists w, longest_lexeme t w /\ lexeme k w /\
    (n = tlen w \/ k = BYTE_STRING /\ n = N.of_nat (length w)).

Lemma punct_case c r w k longer n :
  starts_with (c :: r) w = true ->
  forallb (fun p => match fst p with
     | x :: _ => if x =? c then Nat.leb (length (fst p)) (length w) || existsb (text_eqb (fst p)) longer
                 else true
     | [] => false end) puncts = true ->
  existsb (fun p => text_eqb (fst p) w && kind_eqb (snd p) k) puncts = true ->
  forallb (fun l => negb (starts_with (c :: r) l)) longer = true ->
  (c =? 47) && starts_with (c :: r) (`"//") = false ->
  negb (is_space c) && negb (is_digit c) && negb (is_name_start c) = true ->
  n = tlen w ->
  tok_spec (c :: r) k n.
Proof.
  intros Hw Ht Hk Hl Hcom Hcl ->. exists w.
  apply starts_with_spec in Hw as [rest Hw].
  assert (Hc : not_class c).
  { unfold not_class. rewrite <- is_space_spec, <- is_digit_spec, <- is_name_start_spec.
    destruct (is_space c), (is_digit c), (is_name_start c); cbn in Hcl; try discriminate.
    repeat split; discriminate. }
  split; [split; [eauto|]|split; [|left; reflexivity]].
  - apply max_punct; [exact Hc| |].
    + destruct (c =? 47) eqn:E; [|left; apply N.eqb_neq; exact E]. right. cbn [andb] in Hcom.
      destruct r as [|d r]; [right; reflexivity|]. left. exists d, r. split; [reflexivity|].
      intros ->. apply N.eqb_eq in E. subst c. lits.
      change (47 :: 47 :: r) with ([47; 47] ++ r) in Hcom. rewrite starts_with_app in Hcom. discriminate.
    + intros k' w' rest' Hin E.
      rewrite forallb_forall in Ht. specialize (Ht _ Hin). cbn [fst] in Ht.
      destruct w' as [|x w']; [discriminate|]. pose proof E as E0. cbn [app] in E. injection E as <- E.
      rewrite N.eqb_refl in Ht. apply orb_true_iff in Ht as [Ht|Ht]; [lia|].
      apply existsb_exists in Ht as (l & Hl1 & Hl2). apply text_eqb_eq in Hl2. subst l.
      rewrite forallb_forall in Hl. specialize (Hl _ Hl1).
      rewrite E0, starts_with_app in Hl. discriminate.
  - apply existsb_exists in Hk as ([w' k'] & Hin & E). cbn [fst snd] in E.
    apply andb_true_iff in E as [E1 E2]. apply text_eqb_eq in E1. apply kind_eqb_eq in E2. subst.
    apply lex_punct. exact Hin.
Qed.

Lemma lookup_keyword w : match from_keyword w with
  | Some k => In (w, k) keywords
  | None => ~ In w (map fst keywords)
  end.
Proof.
  unfold from_keyword.
  change keyword_table with keywords.
  assert (G : forall l : list (text * kind), match alookup text_eqb w l with
     | Some k => In (w, k) l | None => ~ In w (map fst l) end).
  { induction l as [|[w' k'] l IH]; cbn [alookup map In fst]; [tauto|].
    destruct (text_eqb w' w) eqn:E.
    - apply text_eqb_eq in E. subst. auto.
    - apply text_eqb_neq in E. destruct (alookup text_eqb w l) as [k|]; [right; exact IH|].
      intros [H|H]; auto. }
  apply G.
Qed.

Ltac eqc H := apply N.eqb_eq in H; subst.

Theorem find_token_spec t k n : find_token t = Ok (k, n) -> t <> [] -> tok_spec t k n.
Proof.
  intros H Ht. destruct t as [|c r]; [congruence|]. clear Ht. unfold find_token in H.
  destruct (is_space c) eqn:Esp.
  { injection H as <- <-. destruct (span is_space r) as [a b] eqn:E.
    destruct (span_spec _ _ _ _ E) as (-> & Fa & Hb).
    assert (Fc : Forall blank (c :: a)).
    { apply (Forall_iff _ _ _ is_space_spec). constructor; auto. }
    exists (c :: a). split; [split|split].
    - exists b. reflexivity.
    - apply (max_blank (c :: a) b); [exact Hb|exact Fc|discriminate].
    - apply lex_space; [discriminate|exact Fc].
    - left. rewrite (space_run_span _ _ _ E). rewrite tlen_ascii; [cbn [length]; lia|].
      eapply ascii_of; [|exact Fc]. intros; classes. }
  destruct ((c =? 47) && starts_with (c :: r) (`"//")) eqn:Ecom.
  { apply andb_true_iff in Ecom as [E1 E2]. eqc E1.
    apply starts_with_spec in E2 as [r0 E2]. pose proof E2 as E2'. lits. cbn [app] in E2. injection E2 as ->.
    rewrite (find_byte_ext _ (fun ch => negb (negb (ch =? 10))) _ (fun ch => eq_sym (negb_involutive _))) in H.
    destruct (span (fun ch => negb (ch =? 10)) r0) as [a b] eqn:E.
    assert (Es : span (fun ch => negb (ch =? 10)) (47 :: 47 :: r0) = (47 :: 47 :: a, b)).
    { cbn [span]. change (negb (47 =? 10)) with true. cbn match. rewrite E. reflexivity. }
    rewrite (find_byte_span _ _ _ _ Es) in H.
    destruct (span_spec _ _ _ _ E) as (-> & Fa & Hb).
    assert (Na : ~ In 10 a).
    { rewrite Forall_forall in Fa. intros Hin. specialize (Fa _ Hin). discriminate. }
    destruct b as [|x b].
    - injection H as <- <-. exists (47 :: 47 :: a). rewrite app_nil_r.
      split; [split|split].
      + exists []. rewrite app_nil_r. reflexivity.
      + apply max_comment; [reflexivity|exists a; lits; auto|exists []; rewrite app_nil_r; reflexivity|auto].
      + apply (lex_comment_eof a Na).
      + left. reflexivity.
    - injection H as <- <-. cbn [stops] in Hb. destruct (x =? 10) eqn:Ex; [|discriminate]. eqc Ex.
      exists (47 :: 47 :: a ++ [10]). split; [split|split].
      + exists b. cbn [app]. rewrite <- app_assoc. reflexivity.
      + apply max_comment; [reflexivity| | |].
        * exists a; lits; auto.
        * exists b. cbn [app]. rewrite <- app_assoc. reflexivity.
        * left. exists a. reflexivity.
      + apply (lex_comment_line a Na).
      + left. cbn [tlen]. rewrite tlen_app. cbn [tlen]. change (utf8_len 10) with 1. lia. }
  destruct (is_digit c) eqn:Edig.
  { destruct (starts_with (c :: r) (`"0x") && (2 <? tlen (c :: r))) eqn:E0x.
    - apply andb_true_iff in E0x as [E1 E2]. apply starts_with_spec in E1 as [t2 E1]. lits.
      assert (Hs : slice_from (c :: r) 2 = Ok t2).
      { rewrite E1. apply (slice_from_app [48; 120] t2). }
      rewrite Hs in H. cbn [bind] in H. clear Hs.
      unfold get_hex_number in H. destruct (span is_hex_digit t2) as [hs b] eqn:Eh.
      rewrite (find_byte_len _ _ _ _ Eh) in H.
      destruct (span_spec _ _ _ _ Eh) as (-> & Fh & Hb).
      destruct (number_suffix (hs ++ b) hs b eq_refl) as (suf & rest & Hin & Eb & G & Hmax).
      rewrite G in H. cbn [bind] in H. rewrite E1.
      apply (Forall_iff _ _ _ is_hex_spec) in Fh.
      destruct (tlen (hs ++ suf) =? 0) eqn:E0.
      + injection H as <- <-. apply N.eqb_eq in E0. apply tlen_0 in E0. exists [48].
        split; [split|split].
        * eexists. reflexivity.
        * eapply max_hex; eauto.
        * apply (lex_dec [48] []); [discriminate|constructor; [classes|constructor]|cbn; auto].
        * left. reflexivity.
      + injection H as <- <-. exists ([48; 120] ++ hs ++ suf). split; [split|split].
        * exists rest. rewrite Eb, <- !app_assoc. reflexivity.
        * eapply max_hex; eauto.
        * apply (lex_hex hs suf); auto. intros Z. rewrite Z in E0. discriminate.
        * left. rewrite (tlen_app [48; 120]). reflexivity.
    - unfold get_decimal_number in H. destruct (span is_digit (c :: r)) as [ds b] eqn:Ed.
      rewrite (position_len _ _ _ _ Ed) in H by (intros x; rewrite is_digit_spec; classes).
      destruct (span_spec _ _ _ _ Ed) as (Ecr & Fd & Hb).
      destruct (number_suffix (c :: r) ds b Ecr) as (suf & rest & Hin & Eb & G & Hmax).
      rewrite G in H. injection H as <- <-.
      apply (Forall_iff _ _ _ is_digit_spec) in Fd.
      assert (Hne : ds <> []).
      { cbn [span] in Ed. rewrite Edig in Ed. destruct (span is_digit r). injection Ed as <- _. discriminate. }
      exists (ds ++ suf). split; [split|split].
      + exists rest. rewrite <- app_assoc, <- Eb. exact Ecr.
      + rewrite Ecr. apply max_dec; auto. intros (r' & E & Hr'). rewrite <- Ecr in E.
        rewrite E in E0x. apply andb_false_iff in E0x as [E0x|E0x].
        * lits. rewrite starts_with_app in E0x. discriminate.
        * rewrite tlen_app in E0x. cbn [tlen] in E0x.
          destruct r' as [|x r']; [congruence|]. cbn [tlen] in E0x. pose proof (utf8_len_pos x).
          change (utf8_len 48) with 1 in E0x. change (utf8_len 120) with 1 in E0x. lia.
      + apply lex_dec; auto.
      + left. reflexivity. }
  destruct (is_name_start c) eqn:Enam.
  { apply is_name_start_spec in Enam.
    destruct (starts_with (c :: r) [120; 34] || starts_with (c :: r) [98; 34]) eqn:Est.
    - assert (Hp : exists p r0, (p = 120 \/ p = 98) /\ c :: r = p :: 34 :: r0).
      { apply orb_true_iff in Est as [Est|Est]; apply starts_with_spec in Est as [r0 Est];
          cbn [app] in Est; eauto 6. }
      destruct Hp as (p & r0 & Hp & E). injection E as -> ->.
      destruct (slice_from (first_line (p :: 34 :: r0)) 2) as [line| |] eqn:Esl; try discriminate.
      cbn [bind] in H. destruct (get_string_len 0 line) as [q|] eqn:Eq; [|discriminate].
      injection H as <- <-.
      destruct (first_line_prefix (p :: 34 :: r0)) as (rr & Efl & Hnl).
      assert (Hfl : first_line (p :: 34 :: r0) = p :: 34 :: line).
      { unfold slice_from in Esl. destruct (split_at (first_line (p :: 34 :: r0)) 2) as [[a b]|] eqn:Es;
          [|discriminate]. injection Esl as ->. apply split_at_spec in Es as [Es El]. rewrite Es in *.
        assert (U : utf8_len p = 1) by (destruct Hp as [-> | ->]; reflexivity).
        destruct a as [|a1 [|a2 a]]; cbn [tlen] in El.
        - discriminate.
        - cbn [app] in Efl. injection Efl as <- _. lia.
        - cbn [app] in Efl. injection Efl as <- <- _. change (utf8_len 34) with 1 in El.
          assert (Z : tlen a = 0) by lia. apply tlen_0 in Z. subst a. reflexivity. }
      rewrite Hfl in *.
      apply get_string_len_spec in Eq as (b & r1 & -> & Hb & ->);
        [|intros Hx; apply Hnl; right; right; exact Hx].
      cbn [app] in Efl. rewrite <- app_assoc in Efl. injection Efl as ->. cbn [app].
      exists (p :: 34 :: b ++ [34]). split; [split|split].
      + exists (r1 ++ rr). cbn [app]. rewrite <- app_assoc. reflexivity.
      + apply max_string; auto.
      + apply lex_bytes; auto.
      + right. split; [reflexivity|]. cbn [length]. rewrite app_length. cbn [length]. lia.
    - unfold get_name_len in H. destruct (span is_name_char (c :: r)) as [w b] eqn:Es.
      rewrite (position_len _ _ _ _ Es) in H by (intros x; rewrite is_name_char_spec; classes).
      destruct (span_spec _ _ _ _ Es) as (Ecr & Fw & Hb).
      rewrite Ecr in H at 1. rewrite slice_to_app in H. cbn [bind] in H. injection H as <- <-.
      apply (Forall_iff _ _ _ is_name_char_spec) in Fw.
      assert (Hw : exists a, w = c :: a).
      { cbn [span] in Es. assert (Hc : is_name_char c = true) by (apply is_name_char_spec; left; exact Enam).
        rewrite Hc in Es. destruct (span is_name_char r). injection Es as <- _. eauto. }
      destruct Hw as [a ->]. exists (c :: a). split; [split|split].
      + eauto.
      + rewrite Ecr. apply max_name; auto; [inversion Fw; auto|].
        intros (p & r' & Hp & E). rewrite <- Ecr in E. injection E as -> ->.
        apply orb_false_iff in Est as [Est1 Est2].
        destruct Hp as [-> | ->].
        * change (120 :: 34 :: r') with ([120; 34] ++ r') in Est1.
          rewrite starts_with_app in Est1. discriminate.
        * change (98 :: 34 :: r') with ([98; 34] ++ r') in Est2.
          rewrite starts_with_app in Est2. discriminate.
      + pose proof (lookup_keyword (c :: a)) as HK. destruct (from_keyword (c :: a)).
        * apply lex_keyword. exact HK.
        * apply lex_ident; auto. inversion Fw; auto.
      + left. reflexivity. }
  assert (Hcl : negb (is_space c) && negb (is_digit c) && negb (is_name_start c) = true)
    by (rewrite Esp, Edig, Enam; reflexivity).
  clear Esp Edig Enam.
  Ltac pc w k l :=
    eapply (punct_case _ _ w k l);
    [ first [assumption | apply starts_with_spec; eexists; reflexivity] | vm_compute; reflexivity | vm_compute; reflexivity
    | cbn [forallb]; repeat match goal with E : starts_with _ _ = false |- _ => rewrite E; clear E end; reflexivity
    | assumption | assumption | vm_compute; reflexivity ].
  destruct (c =? 38) eqn:E; [eqc E|clear E].
  { destruct (starts_with _ (`"&mut")) eqn:E1; [injection H as <- <-; pc (`"&mut") AMP_MUT (@nil text)|].
    destruct (starts_with _ (`"&&")) eqn:E2; injection H as <- <-;
      [pc (`"&&") AMP_AMP [`"&mut"] | pc (`"&") AMP [`"&mut"; `"&&"]]. }
  destruct (c =? 124) eqn:E; [eqc E|clear E].
  { destruct (starts_with _ (`"||")) eqn:E2; injection H as <- <-;
      [pc (`"||") PIPE_PIPE (@nil text) | pc (`"|") PIPE [`"||"]]. }
  destruct (c =? 61) eqn:E; [eqc E|clear E].
  { destruct (starts_with _ (`"==>")) eqn:E1; [injection H as <- <-; pc (`"==>") EQ_EQ_GT (@nil text)|].
    destruct (starts_with _ (`"==")) eqn:E2; injection H as <- <-;
      [pc (`"==") EQ_EQ [`"==>"] | pc (`"=") EQ [`"==>"; `"=="]]. }
  destruct (c =? 33) eqn:E; [eqc E|clear E].
  { destruct (starts_with _ (`"!=")) eqn:E2; injection H as <- <-;
      [pc (`"!=") BANG_EQ (@nil text) | pc (`"!") BANG [`"!="]]. }
  destruct (c =? 60) eqn:E; [eqc E|clear E].
  { destruct (starts_with _ (`"<==>")) eqn:E1; [injection H as <- <-; pc (`"<==>") LT_EQ_EQ_GT (@nil text)|].
    destruct (starts_with _ (`"<=")) eqn:E2; [injection H as <- <-; pc (`"<=") LT_EQ [`"<==>"]|].
    destruct (starts_with _ (`"<<")) eqn:E3; injection H as <- <-;
      [pc (`"<<") LT_LT [`"<==>"] | pc (`"<") LT [`"<==>"; `"<="; `"<<"]]. }
  destruct (c =? 62) eqn:E; [eqc E|clear E].
  { destruct (starts_with _ (`">=")) eqn:E2; [injection H as <- <-; pc (`">=") GT_EQ (@nil text)|].
    destruct (starts_with _ (`">>")) eqn:E3; injection H as <- <-;
      [pc (`">>") GT_GT (@nil text) | pc (`">") GT [`">="; `">>"]]. }
  destruct (c =? 58) eqn:E; [eqc E|clear E].
  { destruct (starts_with _ (`"::")) eqn:E2; injection H as <- <-;
      [pc (`"::") COLON_COLON (@nil text) | pc (`":") COLON [`"::"]]. }
  destruct (c =? 37) eqn:E; [eqc E; injection H as <- <-; pc (`"%") MOD (@nil text)|clear E].
  destruct (c =? 40) eqn:E; [eqc E; injection H as <- <-; pc (`"(") L_PAREN (@nil text)|clear E].
  destruct (c =? 41) eqn:E; [eqc E; injection H as <- <-; pc (`")") R_PAREN (@nil text)|clear E].
  destruct (c =? 91) eqn:E; [eqc E; injection H as <- <-; pc (`"[") L_BRACK (@nil text)|clear E].
  destruct (c =? 93) eqn:E; [eqc E; injection H as <- <-; pc (`"]") R_BRACK (@nil text)|clear E].
  destruct (c =? 42) eqn:E; [eqc E; injection H as <- <-; pc (`"*") STAR (@nil text)|clear E].
  destruct (c =? 43) eqn:E; [eqc E; injection H as <- <-; pc (`"+") PLUS (@nil text)|clear E].
  destruct (c =? 44) eqn:E; [eqc E; injection H as <- <-; pc (`",") COMMA (@nil text)|clear E].
  destruct (c =? 45) eqn:E; [eqc E; injection H as <- <-; pc (`"-") MINUS (@nil text)|clear E].
  destruct (c =? 46) eqn:E; [eqc E|clear E].
  { destruct (starts_with _ (`"..")) eqn:E2; injection H as <- <-;
      [pc (`"..") DOTDOT (@nil text) | pc (`".") DOT [`".."]]. }
  destruct (c =? 47) eqn:E; [eqc E; injection H as <- <-; pc (`"/") SLASH (@nil text)|].
  destruct (c =? 59) eqn:E1; [eqc E1; injection H as <- <-; pc (`";") SEMICOLON (@nil text)|clear E1].
  destruct (c =? 94) eqn:E1; [eqc E1; injection H as <- <-; pc (`"^") CARET (@nil text)|clear E1].
  destruct (c =? 123) eqn:E1; [eqc E1; injection H as <- <-; pc (`"{") L_BRACE (@nil text)|clear E1].
  destruct (c =? 125) eqn:E1; [eqc E1; injection H as <- <-; pc (`"}") R_BRACE (@nil text)|clear E1].
  destruct (c =? 35) eqn:E1; [eqc E1; injection H as <- <-; pc (`"#") NUMSIGN (@nil text)|clear E1].
  destruct (c =? 64) eqn:E1; [eqc E1; injection H as <- <-; pc (`"@") ATSIGN (@nil text)|clear E1].
  discriminate.
Qed.

(** ** Kinds of lexemes are unique *)
Lemma assoc_unique (l : list (text * kind)) w k k' :
  forallb (fun p => forallb (fun q => negb (text_eqb (fst p) (fst q)) || kind_eqb (snd p) (snd q)) l) l = true ->
  In (w, k) l -> In (w, k') l -> k = k'.
Proof.
  intros H H1 H2. rewrite forallb_forall in H. specialize (H _ H1). rewrite forallb_forall in H.
  specialize (H _ H2). cbn [fst snd] in H. rewrite text_eqb_refl in H. cbn [negb orb] in H.
  apply kind_eqb_eq in H. exact H.
Qed.

Lemma no_slash_slash w k r : In (w, k) puncts -> w = `"//" ++ r -> False.
Proof.
  intros H E.
  assert (G : forallb (fun p => negb (starts_with (fst p) (`"//"))) puncts = true) by (vm_compute; reflexivity).
  rewrite forallb_forall in G. specialize (G _ H). cbn [fst] in G. rewrite E, starts_with_app in G. discriminate.
Qed.

Lemma word_no_quote w c r : Forall name_char w -> w = c :: 34 :: r -> False.
Proof. intros F ->. inversion F as [|? ? _ F2]; subst. inversion F2; subst. classes. Qed.


Inductive kclass (k : kind) (w : text) (c : char) : Prop :=
| kc_blank : k = WHITESPACE -> blank c -> kclass k w c
| kc_digit : k = INTEGER_NUMBER -> digit c -> kclass k w c
| kc_string : k = BYTE_STRING -> letter_ c -> string_form w -> kclass k w c
| kc_name : letter_ c -> Forall name_char w ->
    In (w, k) keywords \/ k = IDENT /\ ~ In w (map fst keywords) -> kclass k w c
| kc_comment : k = COMMENT -> c = 47 -> (exists r, w = `"//" ++ r) -> kclass k w c
| kc_punct : not_class c -> In (w, k) puncts -> kclass k w c.

Lemma lexeme_kclass k w : lexeme k w -> exists c r, w = c :: r /\ kclass k w c.
Proof.
  intros H. destruct H as [w Hw Fw|b Hb|b Hb|ds suf Hd Fd Hs|hs suf Hh Fh Hs|p b Hp Hb|w k Hk|c r Hc Fr Hk|w k Hk].
  - destruct w as [|c w]; [congruence|]. exists c, w. split; [reflexivity|]. apply kc_blank; auto.
    inversion Fw; auto.
  - exists 47, (47 :: b ++ [10]). split; [reflexivity|]. apply kc_comment; eauto.
  - exists 47, (47 :: b). split; [reflexivity|]. apply kc_comment; eauto.
  - destruct ds as [|c ds]; [congruence|]. exists c, (ds ++ suf). split; [reflexivity|].
    apply kc_digit; [reflexivity|inversion Fd; auto].
  - exists 48, (120 :: hs ++ suf). split; [reflexivity|]. apply kc_digit; [reflexivity|unfold digit; lia].
  - exists p, (34 :: b ++ [34]). split; [reflexivity|]. apply kc_string; [reflexivity|unfold letter_; lia|].
    exists p, b. auto.
  - destruct (keyword_name _ _ Hk) as (c & r & -> & Hc & Hr). exists c, r. split; [reflexivity|].
    apply kc_name; auto.
  - exists c, r. split; [reflexivity|]. apply kc_name; auto. constructor; [left; auto|auto].
  - destruct (punct_first _ _ Hk) as (c & r & -> & Hc). exists c, r. split; [reflexivity|].
    apply kc_punct; auto.
Qed.

Lemma keyword_unique w k k' : In (w, k) keywords -> In (w, k') keywords -> k = k'.
Proof. apply assoc_unique. vm_compute. reflexivity. Qed.
Lemma punct_unique w k k' : In (w, k) puncts -> In (w, k') puncts -> k = k'.
Proof. apply assoc_unique. vm_compute. reflexivity. Qed.

Lemma lexeme_kind_unique k k' w : lexeme k w -> lexeme k' w -> k = k'.
Proof.
  intros H H'.
  destruct (lexeme_kclass _ _ H) as (c & r & E & F).
  destruct (lexeme_kclass _ _ H') as (c' & r' & E' & F').
  rewrite E in E'. injection E' as <- <-. clear H H'.
  destruct F as [K1 B|K1 B|K1 B S|B W K1|K1 B [r1 S]|B K1];
    destruct F' as [K2 B'|K2 B'|K2 B' S'|B' W' K2|K2 B' [r2 S']|B' K2]; try congruence; try classes.
  - exfalso. destruct S as (p & b & _ & _ & S). eapply word_no_quote; eauto.
  - exfalso. destruct S' as (p & b & _ & _ & S'). eapply word_no_quote; eauto.
  - destruct K1 as [K1|[-> N1]], K2 as [K2|[-> N2]]; try reflexivity.
    + eapply keyword_unique; eauto.
    + exfalso. apply N2. apply (in_map fst) in K1. exact K1.
    + exfalso. apply N1. apply (in_map fst) in K2. exact K2.
  - exfalso. eapply no_slash_slash; eauto.
  - exfalso. eapply no_slash_slash; eauto.
  - eapply punct_unique; eauto.
Qed.

Lemma lexeme_not_eof k w : lexeme k w -> k <> EOF.
Proof.
  intros H. destruct (lexeme_kclass _ _ H) as (c & r & E & F).
  destruct F as [K _|K _|K _ _|_ _ [I|[K _]]|K _ _|_ I]; try (rewrite K; discriminate); try discriminate.
  - intros ->. assert (G : forallb (fun p => negb (kind_eqb (snd p) EOF)) keywords = true) by (vm_compute; reflexivity).
    rewrite forallb_forall in G. specialize (G _ I). discriminate G.
  - intros ->. assert (G : forallb (fun p => negb (kind_eqb (snd p) EOF)) puncts = true) by (vm_compute; reflexivity).
    rewrite forallb_forall in G. specialize (G _ I). discriminate G.
Qed.

Lemma lexeme_nonempty k w : lexeme k w -> w <> [].
Proof. intros H. destruct (lexeme_kclass _ _ H) as (c & r & -> & _). discriminate. Qed.

(** ** What [find_token] reports, in one statement *)
Lemma find_token_nil : find_token [] = Ok (EOF, 0).
Proof. reflexivity. Qed.

Lemma find_token_len t k n : find_token t = Ok (k, n) -> t <> [] -> 0 < n <= tlen t /\ k <> EOF.
Proof.
  intros H Ht. destruct (find_token_spec t k n H Ht) as (w & [[rest ->] _] & L & Hn).
  pose proof (lexeme_nonempty _ _ L) as Hw. rewrite tlen_app.
  split; [|eapply lexeme_not_eof; eauto].
  pose proof (tlen_ge_length w).
  destruct w as [|c w]; [congruence|]. cbn [length] in *.
  destruct Hn as [->|[_ ->]]; lia.
Qed.

Lemma find_token_eof t n : find_token t = Ok (EOF, n) <-> t = [] /\ n = 0.
Proof.
  split.
  - intros H. destruct t as [|c r]; [injection H as <-; auto|].
    apply find_token_len in H as [_ H]; [congruence|discriminate].
  - intros [-> ->]. reflexivity.
Qed.

(** ** When it reports nothing: the todo!() arms *)
Definition string_start (t : text) : Prop := exists p r, (p = 120 \/ p = 98) /\ t = p :: 34 :: r.

Lemma get_string_len_complete b r : string_body b -> forall pos,
  get_string_len pos (b ++ 34 :: r) = Some (pos + N.of_nat (length b)).
Proof.
  induction 1 as [|c b H1 H2 H3 Hb IH|c b H1 Hb IH]; intros pos; cbn [app get_string_len length].
  - change (34 =? 92) with false. change (34 =? 34) with true. cbn match. f_equal. lia.
  - destruct (c =? 92) eqn:E1; [lia|]. destruct (c =? 34) eqn:E2; [lia|]. rewrite IH. f_equal. lia.
  - change (92 =? 92) with true. cbn match. rewrite IH. f_equal. lia.
Qed.

Lemma string_body_no_lf b : string_body b -> ~ In 10 b.
Proof.
  induction 1; cbn [In]; intros Hin.
  - exact Hin.
  - destruct Hin as [Hin|Hin]; [lia|auto].
  - destruct Hin as [Hin|[Hin|Hin]]; [lia|lia|auto].
Qed.

Lemma until_lf_app a r : ~ In 10 a -> until_lf (a ++ r) = a ++ until_lf r.
Proof.
  induction a as [|c a IH]; intros H; [reflexivity|]. cbn [app until_lf]. unfold cLF.
  destruct (c =? 10) eqn:E; [exfalso; apply H; left; lia|]. rewrite IH; [reflexivity|].
  intros Hin. apply H. right. exact Hin.
Qed.

Lemma first_line_app a c r : ~ In 10 (a ++ [c]) -> c <> cCR ->
  exists r', first_line (a ++ c :: r) = a ++ c :: r'.
Proof.
  intros Hn Hc. unfold first_line.
  change (a ++ c :: r) with (a ++ [c] ++ r). rewrite app_assoc, until_lf_app by exact Hn.
  destruct (until_lf r) as [|x u] eqn:E using rev_ind.
  - rewrite app_nil_r, rev_app_distr. cbn [rev app].
    destruct (c =? cCR) eqn:Ec; [unfold cCR in *; lia|]. exists []. reflexivity.
  - rewrite app_assoc, rev_app_distr. cbn [rev app].
    destruct (x =? cCR).
    + rewrite rev_involutive. exists u. rewrite <- app_assoc. reflexivity.
    + exists (u ++ [x]). rewrite <- !app_assoc. reflexivity.
Qed.

Theorem find_token_panics t : (forall k n, find_token t <> Ok (k, n)) ->
  find_token t = Panic PTodo /\
  ((string_start t /\ forall w rest, t = w ++ rest -> ~ lexeme BYTE_STRING w)
   \/ ~ string_start t /\ forall k w rest, t = w ++ rest -> ~ lexeme k w).
Proof.
  intros H. destruct t as [|c r]; [destruct (H EOF 0 eq_refl)|]. unfold find_token in *.
  destruct (is_space c) eqn:Esp; [destruct (H _ _ eq_refl)|].
  destruct ((c =? 47) && starts_with (c :: r) (`"//")) eqn:Ecom.
  { destruct (find_byte _ _); destruct (H _ _ eq_refl). }
  destruct (is_digit c) eqn:Edig.
  { exfalso. destruct (starts_with (c :: r) (`"0x") && (2 <? tlen (c :: r))) eqn:E0x.
    - apply andb_true_iff in E0x as [E1 E2]. apply starts_with_spec in E1 as [t2 E1]. lits.
      assert (Hs : slice_from (c :: r) 2 = Ok t2).
      { rewrite E1. apply (slice_from_app [48; 120] t2). }
      rewrite Hs in H. cbn [bind] in H.
      unfold get_hex_number in H. destruct (span is_hex_digit t2) as [hs b] eqn:Eh.
      rewrite (find_byte_len _ _ _ _ Eh) in H.
      destruct (span_spec _ _ _ _ Eh) as (-> & Fh & Hb).
      destruct (number_suffix (hs ++ b) hs b eq_refl) as (suf & rest & Hin & Eb & G & Hmax).
      rewrite G in H. cbn [bind] in H. destruct (tlen (hs ++ suf) =? 0); destruct (H _ _ eq_refl).
    - unfold get_decimal_number in H. destruct (span is_digit (c :: r)) as [ds b] eqn:Ed.
      rewrite (position_len _ _ _ _ Ed) in H by (intros x; rewrite is_digit_spec; classes).
      destruct (span_spec _ _ _ _ Ed) as (Ecr & Fd & Hb).
      destruct (number_suffix (c :: r) ds b Ecr) as (suf & rest & Hin & Eb & G & Hmax).
      rewrite G in H. destruct (H _ _ eq_refl). }
  destruct (is_name_start c) eqn:Enam.
  { apply is_name_start_spec in Enam.
    destruct (starts_with (c :: r) [120; 34] || starts_with (c :: r) [98; 34]) eqn:Est.
    - assert (Hp : string_start (c :: r)).
      { apply orb_true_iff in Est as [Est|Est]; apply starts_with_spec in Est as [r0 Est];
          cbn [app] in Est; unfold string_start; eauto 6. }
      pose proof Hp as (p & r0 & Hpp & E). injection E as -> ->.
      assert (Hn : ~ In 10 ([p] ++ [34])) by (cbn [app In]; lia).
      destruct (first_line_app [p] 34 r0 Hn) as [line Hl]; [unfold cCR; lia|].
      cbn [app] in Hl. rewrite Hl in *.
      assert (U : tlen [p; 34] = 2).
      { destruct Hpp as [-> | ->]; reflexivity. }
      assert (Hs : slice_from (p :: 34 :: line) 2 = Ok line).
      { rewrite <- U. apply (slice_from_app [p; 34] line). }
      rewrite Hs in *. cbn [bind] in *.
      destruct (get_string_len 0 line) as [q|] eqn:Eq; [destruct (H _ _ eq_refl)|].
      split; [reflexivity|]. left. split; [exact Hp|]. intros w rest Ew L.
      destruct (lexeme_kclass _ _ L) as (c' & r' & E' & F).
      assert (Hc' : c' = p) by (rewrite E' in Ew; cbn [app] in Ew; injection Ew; auto). subst c'.
      destruct F as [K|K|K B S|B S [K|[K _]]|K|B K]; try discriminate K.
      + destruct S as (p' & b & _ & Hb & S). rewrite S in Ew. cbn [app] in Ew. injection Ew as <- Ew.
        rewrite <- app_assoc in Ew. cbn [app] in Ew. subst r0.
        assert (Hn2 : ~ In 10 ((p :: 34 :: b) ++ [34])).
        { cbn [app In]. rewrite in_app_iff. cbn [In]. pose proof (string_body_no_lf b Hb). intuition lia. }
        destruct (first_line_app (p :: 34 :: b) 34 rest Hn2) as [line2 Hl2]; [unfold cCR; lia|].
        cbn [app] in Hl2. rewrite Hl2 in Hl. injection Hl as <-.
        rewrite get_string_len_complete in Eq by exact Hb. discriminate.
      + assert (G : forallb (fun p => negb (kind_eqb (snd p) BYTE_STRING)) keywords = true) by (vm_compute; reflexivity).
        rewrite forallb_forall in G. specialize (G _ K). discriminate G.
      + classes.
    - exfalso. unfold get_name_len in H. destruct (span is_name_char (c :: r)) as [w b] eqn:Es.
      rewrite (position_len _ _ _ _ Es) in H by (intros x; rewrite is_name_char_spec; classes).
      destruct (span_spec _ _ _ _ Es) as (Ecr & Fw & Hb).
      assert (Hs : slice_to (c :: r) (tlen w) = Ok w) by (rewrite Ecr; apply slice_to_app).
      rewrite Hs in H. destruct (H _ _ eq_refl). }
  assert (NS : ~ string_start (c :: r)).
  { intros (p & r0 & Hp & E). injection E as -> ->. destruct Hp as [-> | ->]; discriminate Enam. }
  assert (P : existsb (N.eqb c) [38; 124; 61; 33; 60; 62; 58; 37; 40; 41; 91; 93; 42; 43; 44; 45; 46; 47;
                       59; 94; 123; 125; 35; 64] = false).
  { cbn [existsb].
    repeat (match type of H with
      | forall k n, (if c =? ?x then _ else _) <> _ => destruct (c =? x) eqn:?
      end; [exfalso; repeat match type of H with
      | forall k n, (if ?b then _ else _) <> _ => destruct b
      end; destruct (H _ _ eq_refl)|]).
    reflexivity. }
  split.
  { cbn [existsb] in P.
    repeat match goal with |- (if c =? ?x then _ else _) = _ => destruct (c =? x) eqn:?; cbn [orb] in P; [congruence|] end.
    reflexivity. }
  right. split; [exact NS|]. intros k w rest Ew L.
  assert (NC : not_class c).
  { unfold not_class. rewrite <- is_space_spec, <- is_digit_spec, <- is_name_start_spec, Esp, Edig, Enam.
    repeat split; discriminate. }
  destruct (lexeme_kclass _ _ L) as (c' & r' & E' & F).
  assert (Hc' : c' = c) by (rewrite E' in Ew; cbn [app] in Ew; injection Ew; auto). subst c'.
  destruct F as [K B|K B|K B S|B S K|K B [q S]|B K]; try classes.
  - subst c. rewrite S in Ew. rewrite Ew in Ecom. rewrite <- app_assoc, starts_with_app in Ecom. discriminate.
  - assert (G : forallb (fun p => match fst p with x :: _ =>
         existsb (N.eqb x) [38; 124; 61; 33; 60; 62; 58; 37; 40; 41; 91; 93; 42; 43; 44; 45; 46; 47;
                       59; 94; 123; 125; 35; 64] | [] => false end) puncts = true) by (vm_compute; reflexivity).
    rewrite forallb_forall in G. specialize (G _ K). cbn [fst] in G. rewrite E' in G. congruence.
Qed.

Lemma find_token_no_fuel t : find_token t <> Fuel.
Proof.
  intros H. destruct (find_token_panics t) as [H' _]; [intros k n E; congruence|congruence].
Qed.
