(** The recursion of the grammar always ends: [parse_fuel] is enough. *)
From Coq Require Import String.
From Verif Require Import Base BaseProofs Kinds KindsProofs Lexer LexerRuns LexerProofs LexerStateProofs
  Parser Grammar TreeSpec ParserLogic GrammarProofs.
Local Open Scope N_scope.

(** What is left: steps before the parser gives up, and bytes of input. *)
Definition left_ (s : pstate) : nat :=
  (N.to_nat (10001 - ps_steps s) + N.to_nat (tlen (lx_text (ps_lexer s)) - lx_cur_start (ps_lexer s)))%nat.

(** Calls that come before any step go to a smaller rank. *)
Definition rank (f : fn) : nat :=
  match f with
  | F_skip_until _ => 0
  | F_postfix _ | F_expr_bp_loop _ _ => 1
  | _ => 2
  end.

Fixpoint quick {A} (p : prog A) (r : nat) (cur : kind) : Prop :=
  match p with
  | Ret _ => True
  | Do c k =>
      match c in cmd B return (B -> Prop) -> Prop with
      | CNth _ => fun _ => True
      | CDoBump _ => fun _ => True
      | CCurrent => fun K => K cur
      | CAssert b => fun K => b = true -> K tt
      | _ => fun K => forall x, K x
      end (fun b => quick (k b) r cur)
  | Call f k => (rank f < r)%nat /\ forall b cur', quick (k b) r cur'
  end.

Lemma left_inv t s st ks : lex_ok t (ps_lexer s) (a_cur st) ks ->
  exists ws rest len, lx_inv t (ps_lexer s) ws rest (a_cur st) len /\
    tlen (lx_text (ps_lexer s)) - lx_cur_start (ps_lexer s) = tlen rest.
Proof.
  intros (gs & rest & len & I & _). exists (ungroup gs), rest, len. split; [exact I|].
  rewrite (li_text _ _ _ _ _ _ I), (li_start _ _ _ _ _ _ I), (steps_text _ _ _ (li_steps _ _ _ _ _ _ I)), tlen_app. lia.
Qed.

Lemma lookahead_no_fuel lx n : lx_lookahead_nth lx n <> Fuel.
Proof.
  assert (HF : forall u, slice_from u (lx_cur_end lx) <> Fuel) by (intros u; unfold slice_from; destruct (split_at u _) as [[? ?]|]; discriminate).
  destruct n as [|[|[|n]]]; cbn [lx_lookahead_nth]; try discriminate.
  - unfold lx_lookahead. destruct (slice_from _ _) as [b| |] eqn:E; cbn [bind]; try discriminate.
    2: exfalso; exact (HF _ E).
    destruct (find_token (trim_start b)) as [[? ?]| |] eqn:F; cbn [bind]; try discriminate.
    exfalso; exact (find_token_no_fuel _ F).
  - unfold lx_lookahead_2. intros X.
    destruct (slice_from (lx_text lx) (lx_cur_end lx)) as [b| |] eqn:E; cbn [bind] in X; try discriminate.
    2: exact (HF _ E).
    destruct (find_token b) as [[k n]| |] eqn:F; cbn [bind] in X; try discriminate.
    2: exact (find_token_no_fuel _ F).
    match type of X with context[slice_from ?u ?m] => destruct (slice_from u m) as [b2| |] eqn:E2 end; cbn [bind] in X; try discriminate.
    2: { unfold slice_from in E2. match type of E2 with context[split_at ?u ?m] => destruct (split_at u m) as [[? ?]|] end; discriminate. }
    destruct (find_token b2) as [[? ?]| |] eqn:F2; cbn [bind] in X; try discriminate.
    exact (find_token_no_fuel _ F2).
Qed.

Definition decides {B} (c : cmd B) : Prop :=
  match c with CNth _ | CDoBump _ => True | _ => False end.

(** One operation: never out of fuel, the measure does not grow, and falls on
    lookups and bumps. *)
Lemma exec_left t {B} (c : cmd B) s st K : rel t s st -> step c st K ->
  exec c s <> Fuel /\ forall b s', exec c s = Ok (b, s') ->
    (left_ s' <= left_ s)%nat /\ (decides c -> (left_ s' < left_ s)%nat).
Proof.
  intros R W. destruct (left_inv _ _ _ _ (r_lex _ _ _ R)) as (ws & rest & len & I & EL).
  destruct c; cbn [exec decides].
  - unfold exec_nth. destruct (Nat.leb n 3); cbn [assert_ bind]; [|split; discriminate].
    destruct (ps_steps s <=? 10000) eqn:E; cbn [assert_ bind]; [|split; discriminate].
    destruct (lx_lookahead_nth (ps_lexer s) n) as [tok| |] eqn:L; cbn [bind]; [|split; discriminate|].
    2: exfalso; exact (lookahead_no_fuel _ _ L).
    split; [discriminate|]. intros b s' H. injection H as <- <-. unfold left_. cbn [ps_steps ps_lexer].
    apply N.leb_le in E. lia.
  - split; [discriminate|]. intros b s' H. injection H as <- <-. split; [lia|tauto].
  - split.
    + destruct (lx_current_text (ps_lexer s)) as [x| |] eqn:E; cbn [bind]; try discriminate.
      unfold lx_current_text in E. exfalso. revert E.
      unfold slice_from, slice_to. repeat (match goal with |- context[split_at ?a ?b] => destruct (split_at a b) as [[? ?]|]; cbn [bind] end); discriminate.
    + intros b s' H. apply bind_ok in H as (x & _ & H). injection H as <- <-. split; [lia|tauto].
  - split; [discriminate|]. intros b s' H. injection H as <- <-. unfold left_. cbn. split; [lia|tauto].
  - cbn [step] in W. destruct W as (_ & Ne & _). unfold exec_do_bump.
    destruct (lx_bump (ps_lexer s)) as [lx'| |] eqn:E; cbn [bind]; [|split; discriminate|].
    2: exfalso; exact (bump_no_fuel _ _ _ _ _ _ I E).
    split; [discriminate|]. intros b s' H. injection H as <- <-. unfold left_. cbn [ps_steps ps_lexer].
    destruct (bump_inv _ _ _ _ _ _ _ I E) as (w & tr & rest' & k' & len' & L & Ft & S & Hk & I').
    assert (EL' : tlen (lx_text lx') - lx_cur_start lx' = tlen rest').
    { rewrite (li_text _ _ _ _ _ _ I'), (li_start _ _ _ _ _ _ I'), (steps_text _ _ _ (li_steps _ _ _ _ _ _ I')), tlen_app. lia. }
    rewrite EL, EL'.
    assert (Hl : tlen rest = tlen (pieces ((a_cur st, w) :: tr)) + tlen rest') by (rewrite (steps_text _ _ _ S), tlen_app; reflexivity).
    unfold pieces in Hl. cbn [map concat snd] in Hl. rewrite tlen_app in Hl.
    destruct (inv_len _ _ _ _ _ _ I) as [Hp|[_ Hp]]; [|congruence]. lia.
  - split; [discriminate|]. intros b s' H. injection H as <- <-. unfold left_. cbn. split; [lia|tauto].
  - unfold exec_complete. destruct (nth_error (ps_events s) m) as [[]|]; try (split; discriminate).
    split; [discriminate|]. intros b s' H. injection H as <- <-. unfold left_. cbn. split; [lia|tauto].
  - unfold exec_abandon. destruct (Nat.eqb (S m) (length (ps_events s))).
    + destruct (nth_error (ps_events s) m) as [[k fp| | |]|]; cbn [bind]; try (split; discriminate).
      destruct k; try (split; discriminate). destruct fp; cbn [bind]; try (split; discriminate).
      split; [discriminate|]. intros b s' H. injection H as <- <-. unfold left_. cbn. split; [lia|tauto].
    + cbn [bind]. split; [discriminate|]. intros b s' H. injection H as <- <-. split; [lia|tauto].
  - unfold exec_precede. cbn [exec_start].
    match goal with |- context[nth_error ?a ?b] => destruct (nth_error a b) as [[]|] end; try (split; discriminate).
    destruct (Nat.leb _ _); cbn [bind]; try (split; discriminate).
    split; [discriminate|]. intros b s' H. injection H as <- <-. unfold left_. cbn. split; [lia|tauto].
  - destruct b; cbn [assert_ bind]; [|split; discriminate].
    split; [discriminate|]. intros b s' H. injection H as <- <-. split; [lia|tauto].
Qed.

Definition ends (s : pstate) {A} (r : res (A * pstate)) : Prop :=
  r <> Fuel /\ forall a s', r = Ok (a, s') -> (left_ s' <= left_ s)%nat.

Section Term.
  Variable t : text.
  Variable rec : forall f, pstate -> res (fn_ret f * pstate).
  Variable n : nat.
  Hypothesis Hsound : forall f s st, rel t s st -> pre f st -> outcome t (post f st) (rec f s).
  Hypothesis Hends : forall f s st, rel t s st -> pre f st -> (64 * left_ s + rank f < n)%nat -> ends s (rec f s).

  Lemma interp_after {A} (p : prog A) : forall s st Q, rel t s st -> wp p Q st ->
    (64 * left_ s + 64 <= n)%nat -> ends s (interp rec p s).
  Proof.
    induction p as [a|B c k IH|f k IH]; intros s st Q R W Hn; cbn [wp interp] in *.
    - split; [discriminate|]. intros a' s' H. injection H as <- <-. lia.
    - pose proof (exec_sound t c s st _ R W) as O. destruct (exec_left t c s st _ R W) as [E1 E2].
      destruct (exec c s) as [[b s']| |] eqn:E; cbn [bind outcome] in *; [|split; discriminate|congruence].
      destruct O as (st' & R' & W'). destruct (E2 b s' eq_refl) as [L _].
      destruct (IH b s' st' Q R' W') as [F1 F2]; [lia|]. split; [exact F1|]. intros a s2 H. apply F2 in H. lia.
    - destruct W as [P W]. pose proof (Hsound f s st R P) as O.
      destruct (Hends f s st R P) as [E1 E2]; [destruct f; cbn; lia|].
      destruct (rec f s) as [[b s']| |] eqn:E; cbn [bind outcome] in *; [|split; discriminate|congruence].
      destruct O as (st' & R' & W'). pose proof (E2 b s' eq_refl) as L.
      destruct (IH b s' st' Q R' (W _ _ W')) as [F1 F2]; [lia|]. split; [exact F1|]. intros a s2 H. apply F2 in H. lia.
  Qed.

  Lemma interp_before {A} (p : prog A) r : forall s st Q, rel t s st -> wp p Q st -> quick p r (a_cur st) ->
    (r < 64)%nat -> (64 * left_ s + r <= n)%nat -> ends s (interp rec p s).
  Proof.
    induction p as [a|B c k IH|f k IH]; intros s st Q R W Hq Hr Hn; cbn [wp interp quick] in *.
    - split; [discriminate|]. intros a' s' H. injection H as <- <-. lia.
    - pose proof (exec_sound t c s st _ R W) as O. destruct (exec_left t c s st _ R W) as [E1 E2].
      assert (HD : decides c \/ ~ decides c) by (destruct c; cbn; tauto).
      destruct HD as [D|D].
      + destruct (exec c s) as [[b s']| |] eqn:E; cbn [bind outcome] in *; [|split; discriminate|congruence].
        destruct O as (st' & R' & W'). destruct (E2 b s' eq_refl) as [L L2]. specialize (L2 D).
        destruct (interp_after (k b) s' st' Q R' W') as [F1 F2]; [lia|].
        split; [exact F1|]. intros a s2 H. apply F2 in H. lia.
      + assert (HK : step c st (fun b st' => wp (k b) Q st' /\ quick (k b) r (a_cur st'))).
        { destruct c as [| | | | | |m kd|m|q|]; cbn [decides] in D; try tauto; cbn [step] in *.
          - split; [exact W|exact Hq].
          - intros x. split; [apply W|apply Hq].
          - intros x. split; [apply W|apply Hq].
          - split; [exact W|apply Hq].
          - destruct (a_stack st); [tauto|]. destruct W as (W1 & W2 & W3 & W4). split; [exact W1|]. split; [exact W2|].
            split; [exact W3|]. intros x. split; [apply W4|apply Hq].
          - destruct (a_stack st); [tauto|]. destruct W as (W1 & W2 & W3). split; [exact W1|]. split; [exact W2|].
            split; [exact W3|apply Hq].
          - destruct W as (W1 & f0 & t0 & W2 & W3). split; [exact W1|]. exists f0, t0. split; [exact W2|].
            intros x. split; [apply W3|apply Hq].
          - intros Hb. split; [apply W|apply Hq]; exact Hb. }
        pose proof (exec_sound t c s st _ R HK) as O'. clear O.
        destruct (exec c s) as [[b s']| |] eqn:E; cbn [bind outcome] in *; [|split; discriminate|congruence].
        destruct O' as (st' & R' & W' & Q'). destruct (E2 b s' eq_refl) as [L _].
        destruct (IH b s' st' Q R' W' Q' Hr) as [F1 F2]; [lia|].
        split; [exact F1|]. intros a s2 H. apply F2 in H. lia.
    - destruct W as [P W]. destruct Hq as [Hf Hq]. pose proof (Hsound f s st R P) as O.
      destruct (Hends f s st R P) as [E1 E2]; [lia|].
      destruct (rec f s) as [[b s']| |] eqn:E; cbn [bind outcome] in *; [|split; discriminate|congruence].
      destruct O as (st' & R' & W'). pose proof (E2 b s' eq_refl) as L.
      destruct (IH b s' st' Q R' (W _ _ W') (Hq _ _) Hr) as [F1 F2]; [lia|].
      split; [exact F1|]. intros a s2 H. apply F2 in H. lia.
  Qed.
End Term.

Ltac qk := repeat match goal with
  | |- True => exact I
  | |- forall _, _ => intro
  | |- quick (if ?b then _ else _) _ _ => destruct b eqn:?; cbn
  | |- context[if ?b then _ else _] => destruct b eqn:?; cbn
  | |- _ /\ _ => split
  | |- (_ < _)%nat => cbn [rank]; lia
  | E : kind_eqb ?c EOF = true |- _ => apply kind_eqb_eq in E; rewrite E in *; discriminate
  end.
Lemma quick_body f st : pre f st -> quick (body f) (rank f) (a_cur st).
Proof.
  intros P. destruct f; try exact I; cbn [body rank].
  - cbn. rewrite ts_has_spec. destruct (kind_in (a_cur st) ts) eqn:E; [exact I|]. cbn.
    destruct (kind_eqb (a_cur st) EOF) eqn:E2; [|exact I].
    apply kind_eqb_eq in E2. rewrite E2 in E. cbn [pre] in P. apply kind_in_In in P. congruence.
  - cbn. qk.
  - cbn. qk.
  - cbn. qk.
  - cbn. qk.
  - cbn. qk.
  - cbn. qk.
Qed.

Theorem run_ends t : forall fuel f s st, rel t s st -> pre f st ->
  (64 * left_ s + rank f < fuel)%nat -> ends s (run fuel f s).
Proof.
  induction fuel as [|fuel IH]; intros f s st R P Hf; [lia|]. cbn [run].
  apply (interp_before t (run fuel) fuel (run_sound t body_sound fuel) IH (body f) (rank f) s st (post f st)); auto.
  - apply body_sound. exact P.
  - apply quick_body. exact P.
  - destruct f; cbn; lia.
  - lia.
Qed.

Theorem parse_ends t lx : lexer_new t = Ok lx -> parse_with_lexer lx <> Fuel.
Proof.
  intros HL. destruct (lexer_new_inv _ _ HL) as (k & len & I).
  assert (R : rel t (parser_new lx) (Ast k None [] [])).
  { constructor; cbn.
    - constructor. constructor.
    - exact Logic.I.
    - exists [], t, len. cbn. split; [exact I|]. split; [constructor|]. split; [constructor|].
      split; [congruence|constructor].
    - constructor. }
  assert (W : wp root (fun _ _ => True) (Ast k None [] [])).
  { unfold root. apply wp_bind, wp_start. intros m. apply wp_bind, wp_root_call. intros l' new Hn.
    apply wp_bind, wp_complete; [discriminate|intro; discriminate|]. intros r. exact Logic.I. }
  unfold parse_with_lexer. set (fuel := parse_fuel (lx_text lx)).
  assert (E : ends (parser_new lx) (interp (run fuel) root (parser_new lx))).
  { apply (interp_before t (run fuel) fuel (run_sound t body_sound fuel) (run_ends t fuel) root 3 _ _ _ R W).
    - cbn. intros _. split; [lia|]. intros _ _ c. exact Logic.I.
    - lia.
    - unfold fuel, parse_fuel, left_. cbn [parser_new ps_steps ps_lexer]. rewrite N2Nat.inj_add.
      rewrite (li_text _ _ _ _ _ _ I), (li_start _ _ _ _ _ _ I). cbn [pieces map concat tlen].
      rewrite !N.sub_0_r.
      pose proof (N2Nat.inj_add 10001 1) as X. change (10001 + 1) with 10002 in X. rewrite X.
      change (N.to_nat 1) with 1%nat. lia. }
  destruct E as [E _]. destruct (interp (run fuel) root (parser_new lx)) as [[u s]| |]; cbn [bind]; congruence.
Qed.
