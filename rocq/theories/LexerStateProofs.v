(** Proofs about the [Lexer] state machine of Lexer.v *)
From Coq Require Import String.
From Verif Require Import Base BaseProofs Kinds KindsProofs LexSpec Lexer LexerRuns LexerProofs.
Local Open Scope N_scope.

(** [steps t ws rest]: starting at [t], successive calls of [find_token]
    report the pieces [ws] and leave [rest]. *)
Inductive steps : text -> list (kind * text) -> text -> Prop :=
| steps_nil t : steps t [] t
| steps_cons k w t ws rest : find_token (w ++ t) = Ok (k, tlen w) -> steps t ws rest ->
    steps (w ++ t) ((k, w) :: ws) rest.

Definition pieces (ws : list (kind * text)) : text := concat (map snd ws).
Definition tok_of (p : kind * text) : token := token_new (fst p) (tlen (snd p)).

Lemma pieces_app a b : pieces (a ++ b) = pieces a ++ pieces b.
Proof. unfold pieces. rewrite map_app, concat_app. reflexivity. Qed.

Lemma steps_text t ws rest : steps t ws rest -> t = pieces ws ++ rest.
Proof.
  induction 1 as [|k w t ws rest _ _ IH]; [reflexivity|].
  unfold pieces in *. cbn [map concat snd]. rewrite <- app_assoc, <- IH. reflexivity.
Qed.

Lemma steps_app t ws1 mid ws2 rest : steps t ws1 mid -> steps mid ws2 rest -> steps t (ws1 ++ ws2) rest.
Proof.
  induction 1 as [|k w t ws mid H _ IH]; intros H2; [exact H2|].
  cbn [app]. constructor; auto.
Qed.

Lemma steps_one k w t : find_token (w ++ t) = Ok (k, tlen w) -> steps (w ++ t) [(k, w)] t.
Proof. intros H. constructor; [exact H|constructor]. Qed.

Lemma steps_det t ws1 ws2 r1 r2 : steps t ws1 r1 -> steps t ws2 r2 ->
  exists ws, ws1 = ws2 ++ ws \/ ws2 = ws1 ++ ws.
Proof.
  intros H. revert ws2 r2. induction H as [|k w t ws rest H _ IH]; intros ws2 r2 H2; [exists ws2; auto|].
  inversion H2 as [|k' w' t' ws' ? H' H2' E]; subst; [exists ((k, w) :: ws); auto|].
  rewrite E, H in H'. injection H' as <- El.
  assert (w' = w) by (eapply (tlen_prefix_inj w' t' w t); auto). subst w'.
  apply app_inv_head in E. subst t'.
  destruct (IH _ _ H2') as [u [-> | ->]]; exists u; auto.
Qed.

(** The state of a lexer over [t]: the tokens before the current one are the
    pieces [ws], the current one starts at [rest]. *)
Record lx_inv (t : text) (lx : lexer) (ws : list (kind * text)) (rest : text) (k : kind) (len : N) : Prop := {
  li_text : lx_text lx = t;
  li_steps : steps t ws rest;
  li_cur : find_token rest = Ok (k, len);
  li_start : lx_cur_start lx = tlen (pieces ws);
  li_end : lx_cur_end lx = tlen (pieces ws) + len;
  li_tok : lx_token lx = token_new k len;
  li_all : lx_all lx = map tok_of ws ++ [token_new k len]
}.

Lemma lexer_new_inv t lx : lexer_new t = Ok lx -> exists k len, lx_inv t lx [] t k len.
Proof.
  unfold lexer_new. intros H. apply bind_ok in H as ([k len] & H & E). injection E as <-.
  exists k, len. constructor; auto. constructor.
Qed.

Lemma find_token_zero t k : find_token t = Ok (k, 0) -> t = [] /\ k = EOF.
Proof.
  intros H. destruct t as [|c r]; [injection H as <-; auto|].
  apply find_token_len in H as [H _]; [lia|discriminate].
Qed.

Lemma slice_from_ok t n b : slice_from t n = Ok b -> exists a, t = a ++ b /\ tlen a = n.
Proof.
  unfold slice_from. destruct (split_at t n) as [[a b']|] eqn:E; [|discriminate].
  intros H. injection H as ->. apply split_at_spec in E. eauto.
Qed.

(** one slice after the current token *)
Lemma inv_slice t lx ws rest k len b : lx_inv t lx ws rest k len ->
  slice_from (lx_text lx) (lx_cur_end lx) = Ok b ->
  exists w, rest = w ++ b /\ tlen w = len.
Proof.
  intros I H. destruct I. rewrite li_text0, li_end0 in H.
  apply slice_from_ok in H as (a & E & L).
  rewrite (steps_text _ _ _ li_steps0) in E.
  assert (exists w, a = pieces ws ++ w).
  { clear - E L.
    assert (H : tlen (pieces ws) <= tlen a) by lia.
    revert a E H L. generalize (pieces ws) as p. intros p. induction p as [|c p IH]; intros a E H L; [exists a; reflexivity|].
    destruct a as [|x a]; cbn [tlen] in H; [pose proof (utf8_len_pos c); lia|].
    cbn [app] in E. injection E as <- E. cbn [tlen] in *. destruct (IH a E) as [w ->]; [lia|lia|].
    exists w. reflexivity. }
  destruct H as [w ->]. rewrite <- app_assoc in E. apply app_inv_head in E. exists w. split; [exact E|].
  rewrite tlen_app in L. lia.
Qed.

Lemma inv_slice_ok t lx ws w b k : lx_inv t lx ws (w ++ b) k (tlen w) ->
  slice_from (lx_text lx) (lx_cur_end lx) = Ok b.
Proof.
  intros I. destruct I. rewrite li_text0, li_end0, (steps_text _ _ _ li_steps0), app_assoc, <- tlen_app.
  apply slice_from_app.
Qed.

Lemma advance_inv t lx ws w b k k' len' : lx_inv t lx ws (w ++ b) k (tlen w) ->
  find_token b = Ok (k', len') ->
  lx_inv t (lx_advance (Lexer (lx_text lx) (lx_cur_end lx) (tlen (lx_text lx) - tlen b)
                       (lx_cur_end lx) (lx_token lx) (lx_all lx)) k' len')
    (ws ++ [(k, w)]) b k' len'.
Proof.
  intros I F. destruct I. unfold lx_advance. cbn [lx_text lx_cur_start lx_all lx_prev_end].
  pose proof (steps_text _ _ _ li_steps0) as Et.
  assert (E : tlen t - tlen b = tlen (pieces (ws ++ [(k, w)]))).
  { rewrite Et, pieces_app, !tlen_app. unfold pieces at 3. cbn [map concat snd]. rewrite app_nil_r. lia. }
  constructor; cbn [lx_text lx_cur_start lx_cur_end lx_all lx_token].
  - exact li_text0.
  - eapply steps_app; [exact li_steps0|]. apply steps_one. exact li_cur0.
  - exact F.
  - rewrite li_text0. exact E.
  - rewrite li_text0, E. reflexivity.
  - reflexivity.
  - rewrite li_all0, map_app. reflexivity.
Qed.

Definition trivia_piece (p : kind * text) : Prop := is_trivia (fst p) = true.

Lemma bump_fuel_inv t fuel : forall lx ws rest k len lx',
  lx_inv t lx ws rest k len -> lx_bump_fuel fuel lx = Ok lx' ->
  exists w tr rest' k' len', tlen w = len /\ Forall trivia_piece tr /\ steps rest ((k, w) :: tr) rest' /\
    is_trivia k' = false /\ lx_inv t lx' (ws ++ (k, w) :: tr) rest' k' len'.
Proof.
  induction fuel as [|fuel IH]; intros lx ws rest k len lx' I H; [discriminate|].
  cbn [lx_bump_fuel] in H. apply bind_ok in H as (b & Hb & H).
  destruct (inv_slice _ _ _ _ _ _ _ I Hb) as (w & -> & <-).
  apply bind_ok in H as ([k' len'] & F & H).
  pose proof (advance_inv _ _ _ _ _ _ _ _ I F) as I'.
  destruct (is_trivia k') eqn:Et.
  - destruct (IH _ _ _ _ _ _ I' H) as (w' & tr & rest' & k'' & len'' & E & Ft & S & Ek & I'').
    exists w, ((k', w') :: tr), rest', k'', len''.
    split; [reflexivity|]. split; [constructor; auto|]. split; [|split; [exact Ek|]].
    + constructor; [exact (li_cur _ _ _ _ _ _ I)|exact S].
    + rewrite <- app_assoc in I''. exact I''.
  - injection H as <-. exists w, [], b, k', len'.
    split; [reflexivity|]. split; [constructor|]. split; [|split; [exact Et|exact I']].
    apply steps_one. exact (li_cur _ _ _ _ _ _ I).
Qed.

Lemma bump_inv t lx ws rest k len lx' :
  lx_inv t lx ws rest k len -> lx_bump lx = Ok lx' ->
  exists w tr rest' k' len', tlen w = len /\ Forall trivia_piece tr /\ steps rest ((k, w) :: tr) rest' /\
    is_trivia k' = false /\ lx_inv t lx' (ws ++ (k, w) :: tr) rest' k' len'.
Proof. apply bump_fuel_inv. Qed.

(** [bump] never runs out of its bound *)
Lemma bump_fuel_no_fuel t fuel : forall lx ws rest k len,
  lx_inv t lx ws rest k len -> (length rest < fuel)%nat -> (0 < len \/ rest = [] /\ k = EOF) ->
  lx_bump_fuel fuel lx <> Fuel.
Proof.
  induction fuel as [|fuel IH]; intros lx ws rest k len I L Hl H; [lia|].
  cbn [lx_bump_fuel] in H.
  destruct (slice_from (lx_text lx) (lx_cur_end lx)) as [b| |] eqn:Hb; cbn [bind] in H; try discriminate.
  2:{ unfold slice_from in Hb. destruct (split_at _ _) as [[? ?]|]; discriminate. }
  destruct (inv_slice _ _ _ _ _ _ _ I Hb) as (w & -> & <-).
  destruct (find_token b) as [[k' len']| |] eqn:F; cbn [bind] in H; try discriminate.
  2:{ exact (find_token_no_fuel _ F). }
  destruct (is_trivia k') eqn:Et; [|discriminate].
  pose proof (advance_inv _ _ _ _ _ _ _ _ I F) as I'.
  assert (Hb0 : b <> []).
  { intros ->. injection F as <- _. discriminate. }
  destruct (find_token_len _ _ _ F Hb0) as [Hl' _].
  refine (IH _ _ _ _ _ I' _ _ H); [|left; lia].
  rewrite app_length in L. destruct w as [|c w]; cbn [length] in L; [|lia].
  destruct Hl as [Hl|[Hl _]]; [cbn in Hl; lia|]. cbn [app] in Hl. congruence.
Qed.

Lemma inv_len t lx ws rest k len : lx_inv t lx ws rest k len -> 0 < len \/ rest = [] /\ k = EOF.
Proof.
  intros I. destruct I. destruct rest as [|c r].
  - right. injection li_cur0 as <- _. auto.
  - left. apply find_token_len in li_cur0 as [? _]; [lia|discriminate].
Qed.

Lemma bump_no_fuel t lx ws rest k len : lx_inv t lx ws rest k len -> lx_bump lx <> Fuel.
Proof.
  intros I. apply (bump_fuel_no_fuel t _ lx ws rest k len I); [|eapply inv_len; eauto].
  rewrite (li_text _ _ _ _ _ _ I), (steps_text _ _ _ (li_steps _ _ _ _ _ _ I)), app_length. lia.
Qed.

(** ** Reachable lexer states *)
Lemma reached_inv t lx : reached t lx -> exists ws rest k len, lx_inv t lx ws rest k len.
Proof.
  induction 1 as [lx H|lx lx' _ (ws & rest & k & len & I) H].
  - destruct (lexer_new_inv _ _ H) as (k & len & I). eauto 6.
  - destruct (bump_inv _ _ _ _ _ _ _ I H) as (w & tr & rest' & k' & len' & _ & _ & _ & _ & I').
    eauto 8.
Qed.

Lemma inv_reached_bump t lx ws rest k len lx' : lx_inv t lx ws rest k len -> lx_bump lx = Ok lx' ->
  exists w b, rest = w ++ b /\ tlen w = len.
Proof.
  intros I H. destruct (bump_inv _ _ _ _ _ _ _ I H) as (w & tr & rest' & k' & len' & L & _ & S & _ & _).
  inversion S; subst. eauto.
Qed.

Lemma token_new_small k len : len < u32_bound -> token_new k len = Tok k len.
Proof. intros H. unfold token_new. rewrite N.mod_small by exact H. reflexivity. Qed.

Lemma tlen_le_app a b : tlen a <= tlen (a ++ b).
Proof. rewrite tlen_app. lia. Qed.

Lemma tlen_piece_le ws p : In p ws -> tlen (snd p) <= tlen (pieces ws).
Proof.
  unfold pieces. induction ws as [|q ws IH]; [intros []|]. cbn [In map concat]. rewrite tlen_app.
  intros [->|H]; [lia|]. specialize (IH H). lia.
Qed.

Lemma tok_of_small ws : tlen (pieces ws) < u32_bound ->
  map tok_of ws = map (fun p => Tok (fst p) (tlen (snd p))) ws.
Proof.
  intros H. apply map_ext_in. intros p Hp. unfold tok_of. apply token_new_small.
  pose proof (tlen_piece_le _ _ Hp). lia.
Qed.

Lemma kind_trunc k len : t_kind (token_new k len) = k.
Proof. reflexivity. Qed.

(** ** Correspondence with the reference tokenizer *)
Lemma ascii_strings_tail a t : ascii_strings (a ++ t) -> ascii_strings t.
Proof. intros H a' w b E. apply (H (a ++ a') w b). rewrite E, app_assoc. reflexivity. Qed.

Lemma find_token_lexeme t k n : ascii_strings t -> find_token t = Ok (k, n) -> t <> [] ->
  exists w rest, t = w ++ rest /\ lexeme k w /\ longest_lexeme t w /\ n = tlen w.
Proof.
  intros A F Ht. destruct (find_token_spec _ _ _ F Ht) as (w & L & Lx & Hn).
  destruct L as [[rest E] M]. exists w, rest. split; [exact E|]. split; [exact Lx|].
  split; [split; eauto|].
  destruct Hn as [->|[-> ->]]; [reflexivity|].
  symmetry. apply tlen_ascii. apply (A [] w rest); auto.
Qed.

Lemma steps_nil_inv t ws : steps [] ws t -> t = [] /\ exists n, ws = repeat (EOF, []) n.
Proof.
  intros H. remember [] as z eqn:Ez. induction H as [t|k w t ws rest F S IH]; subst.
  - split; [reflexivity|]. exists 0%nat. reflexivity.
  - apply app_eq_nil in Ez as [-> ->]. injection F as <-.
    destruct (IH eq_refl) as [-> [n ->]]. split; [reflexivity|]. exists (Datatypes.S n). reflexivity.
Qed.

Lemma steps_stream t ws rest : steps t ws rest -> rest = [] -> ascii_strings t ->
  exists ws' n, ws = ws' ++ repeat (EOF, []) n /\ token_stream t ws'.
Proof.
  induction 1 as [t|k w t ws rest F S IH]; intros -> A.
  - exists [], 0%nat. split; [reflexivity|constructor].
  - destruct (w ++ t) as [|c r] eqn:E.
    + injection F as <- _. apply app_eq_nil in E as [-> ->].
      destruct (steps_nil_inv _ _ S) as [_ [n ->]].
      exists [], (Datatypes.S n). split; [reflexivity|constructor].
    + rewrite <- E in *. assert (Hne : w ++ t <> []) by (rewrite E; discriminate).
      destruct (find_token_lexeme _ _ _ A F Hne) as (w' & r' & E' & L & M & Hn).
      assert (w = w') by (apply (tlen_prefix_inj w t w' r'); auto). subst w'.
      destruct (IH eq_refl (ascii_strings_tail _ _ A)) as (ws' & n & -> & St).
      exists ((k, w) :: ws'), n. split; [reflexivity|]. constructor; auto.
Qed.

(** the reference finds a token where the lexer does *)
Lemma quote_no_lexeme r : forall k w rest, 34 :: r = w ++ rest -> ~ lexeme k w.
Proof.
  intros k w rest E L. destruct (lexeme_kclass _ _ L) as (c & r' & -> & F).
  injection E as <- _.
  destruct F as [K B|K B|K B S|B S K|K B [q S]|B K]; try classes.
  assert (G : forallb (fun p => negb (starts_with (fst p) [34])) puncts = true) by (vm_compute; reflexivity).
  rewrite forallb_forall in G. specialize (G _ K). cbn [fst] in G.
  change (34 :: r') with ([34] ++ r') in G. rewrite starts_with_app in G. discriminate.
Qed.

Lemma stream_find_token k w rest ws : ascii_strings (w ++ rest) ->
  lexeme k w -> longest_lexeme (w ++ rest) w -> token_stream rest ws ->
  find_token (w ++ rest) = Ok (k, tlen w).
Proof.
  intros A L M S.
  assert (Hne : w ++ rest <> []).
  { pose proof (lexeme_nonempty _ _ L). destruct w; [congruence|discriminate]. }
  destruct (find_token (w ++ rest)) as [[k' n]| |] eqn:F.
  - destruct (find_token_lexeme _ _ _ A F Hne) as (w' & r' & E & L' & [_ M'] & ->).
    destruct M as [_ M].
    assert (length w' = length w).
    { pose proof (M _ _ _ E L'). pose proof (M' _ _ _ eq_refl L). lia. }
    assert (w' = w).
    { clear - E H. revert w' E H. induction w as [|c w IH]; intros [|c' w'] E H; cbn in *; try lia; [reflexivity|].
      injection E as -> E. f_equal. apply IH; [exact E|lia]. }
    subst w'. rewrite (lexeme_kind_unique _ _ _ L' L). reflexivity.
  - exfalso. destruct (find_token_panics (w ++ rest)) as [_ [[St B]|[_ N]]].
    + intros k' n' E. congruence.
    + (* unterminated string: the longest lexeme is the letter, then a quote *)
      destruct St as (p & r & Hp & E).
      assert (Hw : w = [p]).
      { destruct (lexeme_kclass _ _ L) as (c & r' & -> & Fc). cbn [app] in E. injection E as -> E.
        destruct Fc as [K X|K X|K X Y|X Y K|K X [q Y]|X K]; try classes.
        - exfalso. apply (B (p :: r') rest eq_refl). rewrite <- K. exact L.
        - destruct r' as [|x r']; [reflexivity|]. exfalso. cbn [app] in E. injection E as -> E.
          eapply (word_no_quote _ p r' Y). reflexivity. }
      subst w. cbn [app] in E. injection E as ->.
      inversion S as [|k2 w2 rest2 ws2 L2 _ _ E2]; subst.
      apply (quote_no_lexeme r k2 w2 rest2); auto.
    + exact (N _ _ _ eq_refl L).
  - exfalso. exact (find_token_no_fuel _ F).
Qed.

Lemma stream_steps t ws : token_stream t ws -> ascii_strings t -> steps t ws [].
Proof.
  induction 1 as [|k w rest ws L M S IH]; intros A; [constructor|].
  constructor.
  - eapply stream_find_token; eauto.
  - apply IH. eapply ascii_strings_tail; eauto.
Qed.

(** ** From a chain of tokens to a run of the lexer *)
Lemma steps_rest t ws1 mid ws2 : steps t ws1 mid -> steps t ws2 [] -> exists ws, steps mid ws [].
Proof.
  intros H. revert ws2. induction H as [t|k w t ws mid F S IH]; intros ws2 H2; [eauto|].
  inversion H2 as [|k' w' t' ws' ? H' H2' E]; subst.
  - match goal with E : w ++ t = [] |- _ => apply app_eq_nil in E as [-> ->] end.
    destruct (steps_nil_inv _ _ S) as [-> _]. exists []. constructor.
  - rewrite E, F in H'. injection H' as <- El.
    assert (w' = w) by (eapply (tlen_prefix_inj w' t' w t); auto). subst w'.
    apply app_inv_head in E. subst t'. eapply IH; eauto.
Qed.

Lemma bump_fuel_no_panic t fuel : forall lx ws rest k len wsr x,
  lx_inv t lx ws rest k len -> steps rest wsr [] -> lx_bump_fuel fuel lx <> Panic x.
Proof.
  induction fuel as [|fuel IH]; intros lx ws rest k len wsr x I S H; [discriminate|].
  cbn [lx_bump_fuel] in H.
  assert (E : exists w b wsr', rest = w ++ b /\ tlen w = len /\ steps b wsr' []).
  { inversion S as [|k' w' t' ws' ? H' H2' E]; subst.
    - pose proof (li_cur _ _ _ _ _ _ I) as F. injection F as <- <-. exists [], [], []. auto.
    - pose proof (li_cur _ _ _ _ _ _ I) as F. rewrite F in H'. injection H' as <- ->. eauto 6. }
  destruct E as (w & b & wsr' & -> & <- & S').
  rewrite (inv_slice_ok _ _ _ _ _ _ I) in H. cbn [bind] in H.
  assert (F : exists k' len', find_token b = Ok (k', len')).
  { inversion S'; subst; [exists EOF, 0; reflexivity|eauto]. }
  destruct F as (k' & len' & F). rewrite F in H. cbn [bind] in H.
  destruct (is_trivia k'); [|discriminate].
  eapply IH; [eapply advance_inv; eauto|exact S'|exact H].
Qed.

Lemma bump_ok t lx ws rest k len wsr : lx_inv t lx ws rest k len -> steps rest wsr [] ->
  exists lx', lx_bump lx = Ok lx'.
Proof.
  intros I S. destruct (lx_bump lx) as [lx'|x|] eqn:E; [eauto|exfalso|exfalso].
  - eapply bump_fuel_no_panic; eauto.
  - eapply bump_no_fuel; eauto.
Qed.

Lemma steps_shrink rest k w tr rest' : steps rest ((k, w) :: tr) rest' -> rest <> [] ->
  (length rest' < length rest)%nat.
Proof.
  intros S Hne. inversion S as [|? ? b ? ? F S']; subst.
  destruct (find_token_len _ _ _ F Hne) as [Hl _].
  rewrite (steps_text _ _ _ S'), !app_length.
  destruct w; [cbn in Hl; lia|cbn [length]; lia].
Qed.

Lemma reaches_eof t : forall n lx ws rest k len wsr, (length rest <= n)%nat ->
  reached t lx -> lx_inv t lx ws rest k len -> steps rest wsr [] ->
  exists lx', reached t lx' /\ t_kind (lx_current lx') = EOF.
Proof.
  induction n as [|n IH]; intros lx ws rest k len wsr L R I S.
  - destruct rest; [|cbn in L; lia]. exists lx. split; [exact R|].
    pose proof (li_cur _ _ _ _ _ _ I) as F. injection F as <- _.
    unfold lx_current. rewrite (li_tok _ _ _ _ _ _ I). reflexivity.
  - destruct rest as [|c r].
    + apply (IH lx ws [] k len wsr); auto. cbn. lia.
    + destruct (bump_ok _ _ _ _ _ _ _ I S) as [lx' B].
      destruct (bump_inv _ _ _ _ _ _ _ I B) as (w & tr & rest' & k' & len' & _ & _ & S1 & _ & I').
      destruct (steps_rest _ _ _ _ S1 S) as [ws3 S3].
      apply (IH lx' (ws ++ (k, w) :: tr) rest' k' len' ws3); auto.
      * assert (Hne : c :: r <> []) by discriminate.
        pose proof (steps_shrink _ _ _ _ _ S1 Hne). lia.
      * eapply reached_bump; eauto.
Qed.

(** ** Progress: a bounded number of bumps reaches the end *)

Lemma bumps_spec t : forall n lx ws rest k len, lx_inv t lx ws rest k len ->
  bumps n lx <> Fuel /\
  forall lx', bumps n lx = Ok lx' -> exists ws' rest' k' len', lx_inv t lx' ws' rest' k' len' /\
    (rest' = [] \/ (length rest' + n <= length rest)%nat).
Proof.
  induction n as [|n IH]; intros lx ws rest k len I.
  - split; [discriminate|]. intros lx' H. injection H as <-. exists ws, rest, k, len. split; [exact I|]. right. lia.
  - cbn [bumps]. destruct (lx_bump lx) as [lx1| |] eqn:B.
    + cbn [bind]. destruct (bump_inv _ _ _ _ _ _ _ I B) as (w & tr & rest1 & k1 & len1 & _ & _ & S & _ & I1).
      destruct (IH _ _ _ _ _ I1) as [H1 H2]. split; [exact H1|]. intros lx' H.
      destruct (H2 _ H) as (ws' & rest' & k' & len' & I' & L). exists ws', rest', k', len'.
      split; [exact I'|].
      destruct rest as [|c r].
      * left. destruct (steps_nil_inv _ _ S) as [-> _]. destruct L as [L|L]; [exact L|].
        destruct rest'; [reflexivity|cbn in L; lia].
      * destruct L as [L|L]; [auto|]. right.
        assert (Hne : c :: r <> []) by discriminate.
        pose proof (steps_shrink _ _ _ _ _ S Hne). lia.
    + split; [discriminate|]. discriminate.
    + exfalso. eapply bump_no_fuel; eauto.
Qed.

(** ** Lookahead *)
Lemma white_blank c : blank c -> is_white_space c = true.
Proof. unfold blank, is_white_space, in_range. lia. Qed.

Lemma white_not_lexeme c r k n : is_white_space c = true -> is_space c = false ->
  find_token (c :: r) <> Ok (k, n).
Proof.
  intros W Sp F. destruct (find_token_spec _ _ _ F) as (w & [[rest E] _] & L & _); [discriminate|].
  destruct (lexeme_kclass _ _ L) as (c' & r' & -> & Fc).
  cbn [app] in E. injection E as <- E.
  assert (B : ~ blank c) by (rewrite <- is_space_spec, Sp; discriminate).
  assert (C : ~ digit c /\ ~ letter_ c /\ c <> 47).
  { unfold is_white_space, in_range in W. unfold digit, letter_. lia. }
  destruct Fc as [K X|K X|K X Y|X Y K|K X [q Y]|X K]; try tauto.
  assert (G : forallb (fun p => match fst p with x :: _ => negb (is_white_space x) | [] => false end) puncts = true)
    by (vm_compute; reflexivity).
  rewrite forallb_forall in G. specialize (G _ K). cbn [fst] in G. rewrite W in G. discriminate.
Qed.

Lemma trim_start_stop t k n : find_token t = Ok (k, n) -> k <> WHITESPACE -> trim_start t = t.
Proof.
  intros F Hk. destruct t as [|c r]; [reflexivity|]. cbn [trim_start].
  destruct (is_white_space c) eqn:W; [|reflexivity]. exfalso.
  destruct (is_space c) eqn:Sp; [|eapply white_not_lexeme; eauto].
  unfold find_token in F. rewrite Sp in F. injection F as <- _. congruence.
Qed.

Lemma trim_start_blank w t : Forall blank w -> trim_start (w ++ t) = trim_start t.
Proof.
  induction 1 as [|c w H _ IH]; [reflexivity|]. cbn [app trim_start]. rewrite (white_blank _ H). exact IH.
Qed.

Lemma whitespace_piece w b n : find_token (w ++ b) = Ok (WHITESPACE, n) -> n = tlen w -> Forall blank w.
Proof.
  intros F ->. assert (Hne : w ++ b <> []).
  { destruct w as [|c w]; [|discriminate]. intros E. cbn [app] in E. subst b. discriminate. }
  destruct (find_token_spec _ _ _ F Hne) as (w' & [[r' E] _] & L & [Hn|[Hn _]]); [|discriminate].
  assert (w = w') by (apply (tlen_prefix_inj w b w' r'); auto). subst w'.
  inversion L as [? H1 H2 H3| | | | | |? ? H|? ? H|? ? H]; subst.
  - exact H2.
  - exfalso. assert (G : forallb (fun p => negb (kind_eqb (snd p) WHITESPACE)) keywords = true) by (vm_compute; reflexivity).
    rewrite forallb_forall in G. specialize (G _ H). discriminate G.
  - exfalso. assert (G : forallb (fun p => negb (kind_eqb (snd p) WHITESPACE)) puncts = true) by (vm_compute; reflexivity).
    rewrite forallb_forall in G. specialize (G _ H). discriminate G.
Qed.

Lemma trim_trivia b tr rest : steps b tr rest -> Forall trivia_piece tr ->
  Forall (fun p => fst p <> COMMENT) tr -> forall k n, find_token rest = Ok (k, n) -> is_trivia k = false ->
  trim_start b = rest.
Proof.
  induction 1 as [t|k0 w t ws rest F S IH]; intros Ft Fc k n Fr Hk.
  - eapply trim_start_stop; [exact Fr|]. intros ->. discriminate.
  - inversion Ft as [|? ? Ft1 Ft2]; subst. inversion Fc as [|? ? Fc1 Fc2]; subst. cbn [fst] in *.
    assert (k0 = WHITESPACE).
    { unfold trivia_piece in Ft1. cbn [fst] in Ft1. destruct k0; try discriminate Ft1; congruence. }
    subst k0. rewrite trim_start_blank by (eapply whitespace_piece; eauto). eapply IH; eauto.
Qed.

Lemma lookahead_next t lx ws rest k len lx' new : lx_inv t lx ws rest k len -> lx_bump lx = Ok lx' ->
  lx_all lx' = lx_all lx ++ new -> Forall (fun tok => t_kind tok <> COMMENT) new ->
  lx_lookahead lx = Ok (lx_current lx').
Proof.
  intros I B E Fc.
  destruct (bump_inv _ _ _ _ _ _ _ I B) as (w & tr & rest' & k' & len' & L & Ft & S & Hk & I').
  inversion S as [|? ? b ? ? F S']; subst.
  rewrite (li_all _ _ _ _ _ _ I'), (li_all _ _ _ _ _ _ I), map_app, <- app_assoc in E.
  cbn [map app] in E. rewrite <- app_assoc in E. apply app_inv_head in E. cbn [app] in E. injection E as E.
  unfold lx_lookahead. rewrite (inv_slice_ok _ _ _ _ _ _ I). cbn [bind].
  rewrite (trim_trivia _ _ _ S' Ft) with (k := k') (n := len').
  - rewrite (li_cur _ _ _ _ _ _ I'). cbn [bind]. unfold lx_current.
    rewrite (li_tok _ _ _ _ _ _ I'). reflexivity.
  - subst new. apply Forall_app in Fc as [Fc _].
    rewrite Forall_forall in Fc |- *. intros p Hp. apply (Fc (tok_of p)). apply in_map. exact Hp.
  - exact (li_cur _ _ _ _ _ _ I').
  - exact Hk.
Qed.

Lemma bump_no_trivia t lx ws rest k len lx' tok : lx_inv t lx ws rest k len -> lx_bump lx = Ok lx' ->
  lx_all lx' = lx_all lx ++ [tok] ->
  exists w b k' len', rest = w ++ b /\ len = tlen w /\ find_token b = Ok (k', len') /\
    tok = token_new k' len' /\ lx_current lx' = tok /\ lx_inv t lx' (ws ++ [(k, w)]) b k' len'.
Proof.
  intros I B E.
  destruct (bump_inv _ _ _ _ _ _ _ I B) as (w & tr & rest' & k' & len' & L & Ft & S & Hk & I').
  inversion S as [|? ? b ? ? F S']; subst.
  pose proof E as E0.
  rewrite (li_all _ _ _ _ _ _ I'), (li_all _ _ _ _ _ _ I), map_app, <- app_assoc in E.
  cbn [map app] in E. rewrite <- app_assoc in E. apply app_inv_head in E. cbn [app] in E. injection E as E.
  destruct tr as [|p tr].
  - cbn [map app] in E. injection E as <-. inversion S'; subst.
    exists w, rest', k', len'. split; [reflexivity|]. split; [reflexivity|].
    split; [exact (li_cur _ _ _ _ _ _ I')|]. split; [reflexivity|].
    split; [unfold lx_current; apply (li_tok _ _ _ _ _ _ I')|exact I'].
  - cbn [map app] in E. injection E as _ E. destruct (map tok_of tr); discriminate.
Qed.

Lemma lookahead_2_next t lx ws rest k len lx1 lx2 t1 t2 : lx_inv t lx ws rest k len ->
  lx_bump lx = Ok lx1 -> lx_bump lx1 = Ok lx2 ->
  lx_all lx1 = lx_all lx ++ [t1] -> lx_all lx2 = lx_all lx1 ++ [t2] ->
  lx_lookahead_2 lx = Ok (lx_current lx1, lx_current lx2).
Proof.
  intros I B1 B2 E1 E2.
  destruct (bump_no_trivia _ _ _ _ _ _ _ _ I B1 E1) as (w & b & k1 & l1 & -> & -> & F1 & -> & C1 & I1).
  destruct (bump_no_trivia _ _ _ _ _ _ _ _ I1 B2 E2) as (w1 & b1 & k2 & l2 & -> & -> & F2 & -> & C2 & I2).
  unfold lx_lookahead_2. rewrite (inv_slice_ok _ _ _ _ _ _ I). cbn [bind].
  rewrite F1. cbn [bind].
  assert (E : tlen (lx_text lx) - tlen (w1 ++ b1) + tlen w1 = lx_cur_end lx1).
  { rewrite (li_text _ _ _ _ _ _ I), (li_end _ _ _ _ _ _ I1).
    rewrite (steps_text _ _ _ (li_steps _ _ _ _ _ _ I)), pieces_app, !tlen_app.
    unfold pieces at 3. cbn [map concat snd]. rewrite app_nil_r. lia. }
  rewrite E. rewrite (li_text _ _ _ _ _ _ I), <- (li_text _ _ _ _ _ _ I1).
  rewrite (inv_slice_ok _ _ _ _ _ _ I1). cbn [bind]. rewrite F2. cbn [bind].
  rewrite C1, C2. reflexivity.
Qed.
