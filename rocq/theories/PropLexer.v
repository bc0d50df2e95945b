(** Properties C17, C18, C24 and C26: tokens.  Specification: LexSpec.v. *)
From Coq Require Import String.
From Verif Require Import Base BaseProofs Kinds KindsProofs TokenSet LexSpec Lexer LexerRuns
  LexerProofs LexerStateProofs LexerExact.
Local Open Scope N_scope.

(** ** C17.  Once the lexer has reached the end, the lengths of its tokens tile
    the text; boundaries are character boundaries because the tiles are texts. *)
Theorem C17_tokens_tile : forall t lx,
  tlen t < u32_bound -> reached t lx -> t_kind (lx_current lx) = EOF ->
  tiles t (map t_len (lx_all lx)).
Proof.
  intros t lx Hs R E. destruct (reached_inv _ _ R) as (ws & rest & k & len & I).
  unfold lx_current in E. rewrite (li_tok _ _ _ _ _ _ I) in E. cbn in E. subst k.
  pose proof (li_cur _ _ _ _ _ _ I) as F. apply find_token_eof in F as [-> ->].
  pose proof (steps_text _ _ _ (li_steps _ _ _ _ _ _ I)) as Et. rewrite app_nil_r in Et.
  exists (map snd ws ++ [[]]). split.
  - rewrite concat_app. cbn [concat]. rewrite !app_nil_r. symmetry. exact Et.
  - rewrite (li_all _ _ _ _ _ _ I), tok_of_small by (rewrite <- Et; exact Hs).
    rewrite !map_app, !map_map. reflexivity.
Qed.

(** In any state: the tokens before the current one tile the text up to the
    start of the current one, and the current one was found there. *)
Theorem C17_tokens_so_far : forall t lx,
  tlen t < u32_bound -> reached t lx ->
  exists before rest, t = before ++ rest /\
    lx_cur_start lx = tlen before /\
    tiles before (map t_len (removelast (lx_all lx))) /\
    last (lx_all lx) (Tok EOF 0) = lx_current lx /\
    lx_cur_end lx = tlen before + t_len (lx_current lx) /\
    tlen before + t_len (lx_current lx) <= tlen t.
Proof.
  intros t lx Hs R. destruct (reached_inv _ _ R) as (ws & rest & k & len & I).
  pose proof (steps_text _ _ _ (li_steps _ _ _ _ _ _ I)) as Et.
  assert (Hl : len <= tlen rest).
  { pose proof (li_cur _ _ _ _ _ _ I) as F. destruct rest as [|c r].
    - injection F as _ <-. cbn. lia.
    - apply find_token_len in F as [F _]; [lia|discriminate]. }
  assert (Hsum : tlen t = tlen (pieces ws) + tlen rest) by (rewrite Et, tlen_app; reflexivity).
  exists (pieces ws), rest. split; [exact Et|]. split; [exact (li_start _ _ _ _ _ _ I)|].
  unfold lx_current. rewrite (li_all _ _ _ _ _ _ I), removelast_last, last_last, (li_tok _ _ _ _ _ _ I).
  rewrite token_new_small by lia. cbn [t_len].
  split; [|split; [reflexivity|split; [exact (li_end _ _ _ _ _ _ I)|lia]]].
  exists (map snd ws). split; [reflexivity|].
  rewrite tok_of_small by lia. rewrite !map_map. reflexivity.
Qed.

(** Every token that is not the end-of-file token is non-empty. *)
Theorem C17_tokens_nonempty : forall t lx tok,
  tlen t < u32_bound -> reached t lx -> In tok (lx_all lx) -> t_kind tok <> EOF -> 0 < t_len tok.
Proof.
  intros t lx tok Hs R Hin Hk. destruct (reached_inv _ _ R) as (ws & rest & k & len & I).
  pose proof (steps_text _ _ _ (li_steps _ _ _ _ _ _ I)) as Et.
  assert (Hsum : tlen t = tlen (pieces ws) + tlen rest) by (rewrite Et, tlen_app; reflexivity).
  rewrite (li_all _ _ _ _ _ _ I) in Hin. apply in_app_iff in Hin as [Hin|[<-|[]]].
  - rewrite tok_of_small in Hin by lia. apply in_map_iff in Hin as ([k' w] & <- & Hin).
    cbn [t_kind t_len fst snd] in *. clear - I Hin Hk. pose proof (li_steps _ _ _ _ _ _ I) as S. clear I.
    induction S as [t|k0 w0 t ws rest F S IH]; [destruct Hin|].
    destruct Hin as [E|Hin]; [|auto]. injection E as -> ->.
    destruct (w ++ t) as [|c r] eqn:E; [injection F as <- _; congruence|].
    apply find_token_len in F as [F _]; [lia|discriminate].
  - pose proof (li_cur _ _ _ _ _ _ I) as F. cbn [t_kind token_new] in Hk.
    destruct rest as [|c r]; [injection F as <- _; congruence|].
    apply find_token_len in F as [F _]; [|discriminate].
    rewrite token_new_small by lia. cbn [t_len]. lia.
Qed.

(** Lexing stops: as many advances as the text has characters reach the end of
    the text, unless one of them panics. *)
Theorem C17_lexing_stops : forall t,
  lexer_new t <> Fuel /\
  forall lx, lexer_new t = Ok lx ->
    (forall n, bumps n lx <> Fuel) /\
    forall lx', bumps (length t) lx = Ok lx' -> t_kind (lx_current lx') = EOF.
Proof.
  intros t. split.
  - unfold lexer_new. destruct (find_token t) as [[? ?]| |] eqn:F; [discriminate|discriminate|].
    exfalso. exact (find_token_no_fuel _ F).
  - intros lx H. destruct (lexer_new_inv _ _ H) as (k & len & I). split.
    + intros n. apply (bumps_spec t n lx _ _ _ _ I).
    + intros lx' B. destruct (bumps_spec t (length t) lx _ _ _ _ I) as [_ G].
      destruct (G _ B) as (ws' & rest' & k' & len' & I' & L).
      assert (rest' = []) by (destruct L as [L|L]; [exact L|destruct rest'; [reflexivity|cbn in L; lia]]).
      subst rest'. pose proof (li_cur _ _ _ _ _ _ I') as F. injection F as <- _.
      unfold lx_current. rewrite (li_tok _ _ _ _ _ _ I'). reflexivity.
Qed.

(** ** C18.  The first token is the longest lexeme, of the kind of that lexeme
    (which is unique).  Its length is that of the lexeme in bytes; only for a
    byte string is it the number of characters. *)
Theorem C18_first_token : forall t k n,
  t <> [] -> find_token t = Ok (k, n) ->
  exists w, longest_lexeme t w /\ lexeme k w /\
    (k <> BYTE_STRING -> n = tlen w) /\ (k = BYTE_STRING -> n = N.of_nat (length w)) /\
    (ascii w -> n = tlen w).
Proof.
  intros t k n Ht F. destruct (find_token_exact _ _ _ F Ht) as (w & L & Lx & Hn).
  exists w. split; [exact L|]. split; [exact Lx|]. destruct (kind_eqb k BYTE_STRING) eqn:K.
  - apply kind_eqb_eq in K. split; [congruence|]. split; [auto|]. intros A. rewrite tlen_ascii by exact A. exact Hn.
  - apply kind_eqb_neq in K. split; [auto|]. split; [congruence|auto].
Qed.
Theorem C18_lexeme_kinds_unique : forall k k' w, lexeme k w -> lexeme k' w -> k = k'.
Proof. exact lexeme_kind_unique. Qed.
Theorem C18_end_of_file : forall t n, find_token t = Ok (EOF, n) <-> t = [] /\ n = 0.
Proof. exact find_token_eof. Qed.

(** When there is no first token (a panic in the program): exactly on an
    unterminated byte string or where no lexeme starts. *)
Theorem C18_no_token : forall t, (forall k n, find_token t <> Ok (k, n)) <->
  (exists p r, (p = 120 \/ p = 98) /\ t = p :: 34 :: r /\
     forall w rest, t = w ++ rest -> ~ lexeme BYTE_STRING w)
  \/ (t <> [] /\ forall k w rest, t = w ++ rest -> ~ lexeme k w).
Proof.
  intros t. split.
  - intros H. destruct (find_token_panics t H) as [_ [[(p & r & Hp & E) B]|[_ B]]].
    + left. eauto 6.
    + right. split; [|exact B]. intros ->. exact (H _ _ eq_refl).
  - intros [(p & r & Hp & E & B)|[Ht B]] k n F.
    + assert (Ht : t <> []) by (subst t; discriminate).
      destruct (find_token_spec _ _ _ F Ht) as (w & [[rest Et] _] & L & _).
      assert (k = BYTE_STRING).
      { subst t. unfold find_token in F. revert F. destruct Hp as [-> | ->].
        - change (is_space 120) with false. change (120 =? 47) with false. change (is_digit 120) with false.
          change (is_name_start 120) with true. cbn [andb].
          replace (starts_with (120 :: 34 :: r) [120; 34]) with true
            by (symmetry; apply starts_with_spec; eexists; reflexivity). cbn [orb].
          intros F. apply bind_ok in F as (line & _ & F). destruct (get_string_len 0 line); [|discriminate].
          injection F as <- _. reflexivity.
        - change (is_space 98) with false. change (98 =? 47) with false. change (is_digit 98) with false.
          change (is_name_start 98) with true. cbn [andb].
          replace (starts_with (98 :: 34 :: r) [98; 34]) with true
            by (symmetry; apply starts_with_spec; eexists; reflexivity). rewrite orb_true_r.
          intros F. apply bind_ok in F as (line & _ & F). destruct (get_string_len 0 line); [|discriminate].
          injection F as <- _. reflexivity. }
      subst k. exact (B _ _ Et L).
    + destruct (find_token_spec _ _ _ F Ht) as (w & [[rest Et] _] & L & _). exact (B _ _ _ Et L).
Qed.

(** The whole token list is that of the reference tokenizer, followed by
    end-of-file tokens, for texts whose byte strings are ASCII. *)
Theorem C18_token_stream : forall t lx,
  tlen t < u32_bound -> ascii_strings t -> reached t lx -> t_kind (lx_current lx) = EOF ->
  exists ws n, token_stream t ws /\
    lx_all lx = map (fun p => Tok (fst p) (tlen (snd p))) ws ++ repeat (Tok EOF 0) (S n).
Proof.
  intros t lx Hs A R E. destruct (reached_inv _ _ R) as (ws & rest & k & len & I).
  unfold lx_current in E. rewrite (li_tok _ _ _ _ _ _ I) in E. cbn in E. subst k.
  pose proof (li_cur _ _ _ _ _ _ I) as F. apply find_token_eof in F as [-> ->].
  pose proof (steps_text _ _ _ (li_steps _ _ _ _ _ _ I)) as Et. rewrite app_nil_r in Et.
  destruct (steps_stream _ _ _ (li_steps _ _ _ _ _ _ I) eq_refl A) as (ws' & n & -> & St).
  exists ws', n. split; [exact St|].
  rewrite (li_all _ _ _ _ _ _ I), tok_of_small by (rewrite <- Et; exact Hs).
  rewrite map_app, <- app_assoc. f_equal.
  replace (map (fun p : kind * text => Tok (fst p) (tlen (snd p))) (repeat (EOF, []) n)) with (repeat (Tok EOF 0) n).
  - change [token_new EOF 0] with (repeat (Tok EOF 0) 1). rewrite <- repeat_app. f_equal. lia.
  - clear. induction n; cbn [repeat map]; [reflexivity|]. rewrite IHn. reflexivity.
Qed.
(** ... and conversely the lexer gets to the end whenever the reference does. *)
Theorem C18_token_stream_reached : forall t ws,
  ascii_strings t -> token_stream t ws ->
  exists lx, reached t lx /\ t_kind (lx_current lx) = EOF.
Proof.
  intros t ws A St. pose proof (stream_steps _ _ St A) as S.
  assert (exists lx, lexer_new t = Ok lx) as [lx H].
  { unfold lexer_new. inversion S; subst.
    - eexists. reflexivity.
    - match goal with F : find_token _ = Ok _ |- _ => rewrite F end. eexists. reflexivity. }
  destruct (lexer_new_inv _ _ H) as (k & len & I).
  eapply (reaches_eof t (length t) lx); eauto. constructor. exact H.
Qed.
(** ASCII texts are in the scope of both. *)
Theorem C18_ascii_in_scope : forall t, ascii t -> ascii_strings t.
Proof.
  intros t H a w b -> _. unfold ascii in *. apply Forall_app in H as [_ H]. apply Forall_app in H as [H _]. exact H.
Qed.

(** Without the ASCII condition the claim is false: the length of a byte string
    is counted in characters, so the token ends early. *)
Theorem C18_non_ascii_string_refuted : exists t k n w,
  find_token t = Ok (k, n) /\ longest_lexeme t w /\ lexeme k w /\ n <> tlen w.
Proof.
  exists [120; 34; 233; 34], BYTE_STRING, 4, [120; 34; 233; 34].
  assert (L : lexeme BYTE_STRING [120; 34; 233; 34]).
  { apply (lex_bytes 120 [233]); [auto|]. repeat constructor; lia. }
  split; [vm_compute; reflexivity|]. split; [|split; [exact L|vm_compute; discriminate]].
  split; [exists []; reflexivity|]. intros k' w' rest' E _.
  apply (f_equal (@length N)) in E. rewrite app_length in E. cbn [length] in *. lia.
Qed.

(** ** C24.  What lookahead reads.  One token ahead: the token that starts at
    the first character after the current token that is not white space. *)
Theorem C24_lookahead_next_reads : forall t lx tok,
  reached t lx -> lx_lookahead_nth lx 1 = Ok tok ->
  exists before blanks rest, t = before ++ blanks ++ rest /\ tlen before = lx_cur_end lx /\
    Forall (fun c => is_white_space c = true) blanks /\
    (forall c r, rest = c :: r -> is_white_space c = false) /\
    token_at rest (t_kind tok).
Proof.
  intros t lx tok R H. cbn [lx_lookahead_nth] in H. unfold lx_lookahead in H. rewrite (reached_text _ _ R) in H.
  apply bind_ok in H as (r0 & S & H). apply bind_ok in H as ([k n] & F & H). injection H as <-.
  destruct (slice_from_split _ _ _ S) as (before & E & Hb). destruct (trim_start_spec r0) as (s & E' & W & N).
  exists before, s, (trim_start r0). split; [congruence|]. split; [auto|]. split; [exact W|]. split.
  - intros c r Er. rewrite Er in N. exact N.
  - cbn [t_kind token_new]. destruct (trim_start r0) as [|c r] eqn:Er.
    + left. injection F as <- _. auto.
    + right. destruct (find_token_exact _ _ _ F) as (w & L & Lx & _); [discriminate|]. eauto.
Qed.
(** What counts as white space there (and in C44 and C60). *)
Theorem C24_white_space : forall c, is_white_space c = true <-> In c unicode_white_space.
Proof. intros c. unfold is_white_space, in_range, unicode_white_space. cbn [In]. lia. Qed.
(** Two tokens ahead: the token that starts where the token directly after the
    current one ends, blanks and comments counting as tokens. *)
Theorem C24_lookahead_second_reads : forall t lx tok,
  reached t lx -> lx_lookahead_nth lx 2 = Ok tok ->
  exists before first rest k1, t = before ++ first ++ rest /\ tlen before = lx_cur_end lx /\
    token_at (first ++ rest) k1 /\
    (k1 = EOF /\ first = [] \/ exists w, longest_lexeme (first ++ rest) w /\
       (k1 <> BYTE_STRING -> first = w) /\ (k1 = BYTE_STRING -> tlen first = N.of_nat (length w))) /\
    token_at rest (t_kind tok).
Proof.
  intros t lx tok R H. cbn [lx_lookahead_nth] in H. unfold lx_lookahead_2 in H. rewrite (reached_text _ _ R) in H.
  apply bind_ok in H as ([t1 t2] & H & E2). injection E2 as <-. cbn [snd].
  apply bind_ok in H as (r0 & S & H). apply bind_ok in H as ([k1 n1] & F1 & H).
  apply bind_ok in H as (r1 & S1 & H). apply bind_ok in H as ([k2 n2] & F2 & H). injection H as _ <-.
  destruct (slice_from_split _ _ _ S) as (before & E & Hb). destruct (slice_from_split _ _ _ S1) as (b1 & E1 & Hb1).
  assert (O : tlen t - tlen r0 + n1 = tlen before + n1) by (rewrite E, tlen_app; lia). rewrite O in Hb1.
  assert (P : exists first, b1 = before ++ first /\ r0 = first ++ r1).
  { assert (L : tlen before <= tlen b1) by lia. rewrite E in E1. clear - E1 L. revert b1 E1 L.
    induction before as [|c before IH]; intros b1 E1 L; [exists b1; auto|].
    destruct b1 as [|d b1].
    - cbn [tlen] in L. pose proof (utf8_len_pos c). lia.
    - cbn [app] in E1. injection E1 as <- E1. destruct (IH b1 E1) as (f & -> & ->); [cbn [tlen] in L; lia|].
      exists f. auto. }
  destruct P as (first & -> & ->). rewrite tlen_app in Hb1. assert (Hn : tlen first = n1) by lia.
  exists before, first, r1, k1. split; [exact E|]. split; [auto|].
  assert (T2 : token_at r1 k2).
  { destruct r1 as [|c r]; [left; injection F2 as <- _; auto|].
    right. destruct (find_token_exact _ _ _ F2) as (w & L & Lx & _); [discriminate|]. eauto. }
  destruct (first ++ r1) as [|c r] eqn:Er.
  - injection F1 as <- <-. apply app_eq_nil in Er as [-> ->].
    split; [left; auto|]. split; [left; auto|exact T2].
  - destruct (find_token_exact _ _ _ F1) as (w & L & Lx & Hw); [discriminate|].
    split; [right; eauto|]. split; [|exact T2]. right. exists w. split; [exact L|].
    destruct (kind_eqb k1 BYTE_STRING) eqn:K.
    + apply kind_eqb_eq in K. split; [congruence|]. intros _. congruence.
    + apply kind_eqb_neq in K. split; [intros _|congruence]. destruct L as [[rest Ew] _].
      rewrite <- Er in Ew. apply (tlen_prefix_inj first r1 w rest); [exact Ew|congruence].
Qed.
(** So one token ahead is right when no comment lies in between. *)
Theorem C24_lookahead_next_agrees : forall t lx lx' new,
  reached t lx -> lx_bump lx = Ok lx' -> lx_all lx' = lx_all lx ++ new ->
  Forall (fun tok => t_kind tok <> COMMENT) new ->
  lx_lookahead_nth lx 1 = Ok (lx_current lx').
Proof.
  intros t lx lx' new R. destruct (reached_inv _ _ R) as (ws & rest & k & len & I).
  exact (lookahead_next t lx ws rest k len lx' new I).
Qed.
(** Two tokens ahead: right when no trivia at all lies in between. *)
Theorem C24_lookahead_second_agrees : forall t lx lx1 lx2 t1 t2,
  reached t lx -> lx_bump lx = Ok lx1 -> lx_bump lx1 = Ok lx2 ->
  lx_all lx1 = lx_all lx ++ [t1] -> lx_all lx2 = lx_all lx1 ++ [t2] ->
  lx_lookahead_nth lx 2 = Ok (lx_current lx2).
Proof.
  intros t lx lx1 lx2 t1 t2 R B1 B2 E1 E2. destruct (reached_inv _ _ R) as (ws & rest & k & len & I).
  unfold lx_lookahead_nth. rewrite (lookahead_2_next t lx ws rest k len lx1 lx2 t1 t2 I B1 B2 E1 E2).
  reflexivity.
Qed.
Theorem C24_lookahead_zero : forall lx, lx_lookahead_nth lx 0 = Ok (lx_current lx).
Proof. reflexivity. Qed.
(** The unrestricted claim is false: a comment is reported as the next token, *)
Theorem C24_lookahead_refuted : exists t lx lx' tok,
  reached t lx /\ lx_bump lx = Ok lx' /\ lx_lookahead_nth lx 1 = Ok tok /\ t_kind tok <> t_kind (lx_current lx').
Proof.
  exists (`"a //" ++ [10] ++ `"b").
  destruct (lexer_new (`"a //" ++ [10] ++ `"b")) as [lx| |] eqn:E; [|vm_compute in E; discriminate..].
  exists lx. vm_compute in E. injection E as <-.
  eexists. eexists. split; [constructor; vm_compute; reflexivity|].
  split; [vm_compute; reflexivity|]. split; [vm_compute; reflexivity|]. vm_compute. discriminate.
Qed.
(** and blanks make the second token of the lookahead the first one. *)
Theorem C24_lookahead_2_refuted : exists t lx lx1 lx2 tok,
  reached t lx /\ lx_bump lx = Ok lx1 /\ lx_bump lx1 = Ok lx2 /\
  lx_lookahead_nth lx 2 = Ok tok /\ t_kind tok <> t_kind (lx_current lx2).
Proof.
  exists (`"a : b").
  destruct (lexer_new (`"a : b")) as [lx| |] eqn:E; [|vm_compute in E; discriminate..].
  exists lx. vm_compute in E. injection E as <-.
  eexists. eexists. eexists. split; [constructor; vm_compute; reflexivity|].
  split; [vm_compute; reflexivity|]. split; [vm_compute; reflexivity|]. split; [vm_compute; reflexivity|].
  vm_compute. discriminate.
Qed.

(** ** C26 *)
Theorem C26_token_set_new : forall ks, exists s, ts_new ks = Ok s /\ s < u128_bound /\
  forall k, exists b, ts_contains s k = Ok b /\ (b = true <-> In k ks).
Proof.
  intros ks. destruct (ts_new_ok ks) as (s & E & H). exists s. split; [exact E|]. split.
  - eapply ts_new_bound; eauto.
  - intros k. exists (kind_in k ks). split; [apply H|apply kind_in_In].
Qed.
Theorem C26_token_set_union : forall a b s s', ts_new a = Ok s -> ts_new b = Ok s' ->
  forall k, exists r, ts_contains (ts_union s s') k = Ok r /\ (r = true <-> In k a \/ In k b).
Proof.
  intros a b s s' Ea Eb k. destruct (ts_new_ok a) as (s1 & E1 & H1). destruct (ts_new_ok b) as (s2 & E2 & H2).
  rewrite E1 in Ea. injection Ea as ->. rewrite E2 in Eb. injection Eb as ->.
  exists (kind_in k a || kind_in k b). split.
  - specialize (H1 k). specialize (H2 k). rewrite ts_contains_ok in *. unfold ts_union.
    rewrite N.lor_spec. congruence.
  - rewrite orb_true_iff, !kind_in_In. reflexivity.
Qed.
Theorem C26_token_set_empty : forall k, ts_contains ts_empty k = Ok false.
Proof. intros k. rewrite ts_contains_ok. unfold ts_empty. rewrite N.bits_0. reflexivity. Qed.
Theorem C26_kind_u16_roundtrip : forall k, kind_to_n k < 65536 /\ kind_from_n (kind_to_n k) = Ok k.
Proof. intros k. split; [pose proof (kind_to_n_lt k); lia|apply kind_from_to]. Qed.
Theorem C26_u16_kind_roundtrip : forall d,
  (d <= kind_to_n K_LAST /\ exists k, kind_from_n d = Ok k /\ kind_to_n k = d) \/
  (kind_to_n K_LAST < d /\ kind_from_n d = Panic PAssert).
Proof.
  intros d. change (kind_to_n K_LAST) with 116. destruct (N.le_gt_cases d 116) as [H|H].
  - left. split; [exact H|]. destruct (kind_from_total d H) as [k E]. exists k. split; [exact E|].
    apply kind_to_from. exact E.
  - right. split; [exact H|]. unfold kind_from_n. change (kind_to_n K_LAST) with 116.
    destruct (d <=? 116) eqn:E; [lia|reflexivity].
Qed.

(** ** The hypotheses are met by real texts *)
Definition sample : text := `"module 0x1::M { // c" ++ [10] ++ `"fun f(a: u8) { b""xy""; a >= 1u64 } }".
Lemma bumps_reached t n : forall lx lx', reached t lx -> bumps n lx = Ok lx' -> reached t lx'.
Proof.
  induction n as [|n IH]; intros lx lx' R H; [injection H as <-; exact R|].
  cbn [bumps] in H. apply bind_ok in H as (lx1 & B & H). eapply IH; [|exact H]. eapply reached_bump; eauto.
Qed.
Example sample_reaches_eof : exists lx, reached sample lx /\ t_kind (lx_current lx) = EOF /\
  tlen sample < u32_bound /\ ascii_strings sample /\ (30 < length (lx_all lx))%nat.
Proof.
  eexists. split; [|split; [|split; [|split]]].
  - eapply (bumps_reached _ 28); [constructor; vm_compute; reflexivity|vm_compute; reflexivity].
  - vm_compute. reflexivity.
  - vm_compute. reflexivity.
  - apply C18_ascii_in_scope. unfold ascii. apply Forall_forall.
    assert (F : forallb (fun c => c <? 128) sample = true) by (vm_compute; reflexivity).
    rewrite forallb_forall in F. intros x Hx. specialize (F x Hx). lia.
  - vm_compute. lia.
Qed.
(** hence, by C18_token_stream, a reference token stream of that text exists *)
Example sample_stream : exists ws, token_stream sample ws.
Proof.
  destruct sample_reaches_eof as (lx & R & E & Hs & A & _).
  destruct (C18_token_stream _ _ Hs A R E) as (ws & n & St & _). eauto.
Qed.
Example lookahead_across_blanks : exists lx lx' new,
  reached (`"fun  f") lx /\ lx_bump lx = Ok lx' /\ lx_all lx' = lx_all lx ++ new /\
  Forall (fun tok => t_kind tok <> COMMENT) new /\ t_kind (lx_current lx') = IDENT.
Proof.
  do 3 eexists. split; [constructor; vm_compute; reflexivity|]. split; [vm_compute; reflexivity|].
  split; [vm_compute; reflexivity|]. split; [repeat constructor; discriminate|vm_compute; reflexivity].
Qed.
Example lookahead_2_without_blanks : exists lx lx1 lx2 t1 t2,
  reached (`"f:u8") lx /\ lx_bump lx = Ok lx1 /\ lx_bump lx1 = Ok lx2 /\
  lx_all lx1 = lx_all lx ++ [t1] /\ lx_all lx2 = lx_all lx1 ++ [t2] /\ t_kind t2 = IDENT.
Proof.
  do 5 eexists. split; [constructor; vm_compute; reflexivity|]. split; [vm_compute; reflexivity|].
  split; [vm_compute; reflexivity|]. split; [vm_compute; reflexivity|]. split; vm_compute; reflexivity.
Qed.
Example unknown_char_has_no_token : forall k n, find_token (`"$") <> Ok (k, n).
Proof. intros k n H. vm_compute in H. discriminate. Qed.

Print Assumptions C17_tokens_tile.
Print Assumptions C17_tokens_so_far.
Print Assumptions C17_tokens_nonempty.
Print Assumptions C17_lexing_stops.
Print Assumptions C18_first_token.
Print Assumptions C18_lexeme_kinds_unique.
Print Assumptions C18_end_of_file.
Print Assumptions C18_no_token.
Print Assumptions C18_token_stream.
Print Assumptions C18_token_stream_reached.
Print Assumptions C18_ascii_in_scope.
Print Assumptions C18_non_ascii_string_refuted.
Print Assumptions C24_lookahead_next_reads.
Print Assumptions C24_white_space.
Print Assumptions C24_lookahead_second_reads.
Print Assumptions C24_lookahead_next_agrees.
Print Assumptions C24_lookahead_second_agrees.
Print Assumptions C24_lookahead_zero.
Print Assumptions C24_lookahead_refuted.
Print Assumptions C24_lookahead_2_refuted.
Print Assumptions C26_token_set_new.
Print Assumptions C26_token_set_union.
Print Assumptions C26_token_set_empty.
Print Assumptions C26_kind_u16_roundtrip.
Print Assumptions C26_u16_kind_roundtrip.
