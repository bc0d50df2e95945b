(** A total-correctness logic for the grammar functions of Grammar.v: unlike
    that of ParserLogic.v it knows the tokens that follow, and shows that the
    parser gets through. *)
From Coq Require Import String.
From Verif Require Import Base BaseProofs Kinds KindsProofs LexSpec Lexer LexerRuns LexerProofs LexerStateProofs
  Parser Grammar TreeSpec ParserLogic ParseProofs.
Local Open Scope N_scope.

(** kind of the current token *)
Definition gcur (gs : list group) : kind := match gs with [] => EOF | g :: _ => fst (fst g) end.
(** no comment behind the token, or no brace or colon after that *)
Definition has_comment (g : group) : Prop := Exists (fun p => fst p = COMMENT) (snd g).
Definition opens (k : kind) : Prop := k = L_BRACE \/ k = COLON \/ k = COLON_COLON.
Fixpoint layout (gs : list group) : Prop :=
  match gs with
  | [] => True
  | g :: r =>
      ((fst (fst g) = IDENT \/ fst (fst g) = INTEGER_NUMBER) -> has_comment g -> ~ opens (gcur r)) /\
      (match r with
       | h :: r' => fst (fst g) = COLON_COLON -> fst (fst h) = IDENT -> snd g = [] -> snd h = [] ->
           gcur r' <> L_BRACE /\ gcur r' <> STAR
       | [] => True
       end) /\ layout r
  end.

Record tst := TS {
  s_toks : list group;
  s_last : option cmark;
  s_kids : forest;
  s_stack : list open_;
  s_spent : N
}.

Section Text.
  Variable t : text.

  Record trel (s : pstate) (st : tst) : Prop := {
    q_lay : lay (ps_events s) (s_stack st) (s_kids st);
    q_last : last_ok (ps_events s) (Ast EOF (s_last st) (s_kids st) (s_stack st));
    q_lex : exists ws rest len, lx_inv t (ps_lexer s) ws rest (gcur (s_toks st)) len /\
              steps rest (ungroup (s_toks st)) [];
    q_groups : Forall group_ok (s_toks st);
    q_solid : Forall solid (tl (s_toks st));
    q_layout : layout (s_toks st);
    q_spent : ps_steps s = s_spent st
  }.

  (** [tw p st Q]: from any parser state described by [st] the program returns,
      in a state described by some [st'] with [Q] *)
  Definition tw {A} (p : prog A) (st : tst) (Q : A -> tst -> Prop) : Prop :=
    forall s, trel s st -> exists n a s' st', interp (run n) p s = Ok (a, s') /\ trel s' st' /\ Q a st'.

  Lemma interp_le n m {A} (p : prog A) s r : (n <= m)%nat -> interp (run n) p s = Ok r -> interp (run m) p s = Ok r.
  Proof.
    intros L H. rewrite <- H. apply interp_more; [|congruence]. intros f s' X. apply run_more; auto.
  Qed.

  Lemma tw_ret {A} (a : A) st (Q : A -> tst -> Prop) : Q a st -> tw (Ret a) st Q.
  Proof. intros H s R. exists O, a, s, st. auto. Qed.

  Lemma tw_mono {A} (p : prog A) st (Q Q' : A -> tst -> Prop) :
    tw p st Q -> (forall a st', Q a st' -> Q' a st') -> tw p st Q'.
  Proof. intros H HQ s R. destruct (H s R) as (n & a & s' & st' & E & R' & X). exists n, a, s', st'. auto. Qed.

  Lemma interp_bind rec {A B} (p : prog A) (q : A -> prog B) : forall s,
    interp rec (pbind p q) s = let! (a, s') := interp rec p s in interp rec (q a) s'.
  Proof.
    induction p as [a|C c k IH|f k IH]; intros s; cbn [pbind interp]; [reflexivity| |].
    - destruct (exec c s) as [[b s']|w|]; cbn [bind]; auto.
    - destruct (rec f s) as [[b s']|w|]; cbn [bind]; auto.
  Qed.

  Lemma tw_bind {A B} (p : prog A) (q : A -> prog B) st Q :
    tw p st (fun a st' => tw (q a) st' Q) -> tw (pbind p q) st Q.
  Proof.
    intros H s R. destruct (H s R) as (n & a & s1 & st1 & E & R1 & H1).
    destruct (H1 s1 R1) as (m & b & s2 & st2 & E2 & R2 & H2).
    exists (n + m)%nat, b, s2, st2. split; [|auto]. rewrite interp_bind.
    rewrite (interp_le n (n + m) p s _ ltac:(lia) E). cbn [bind].
    exact (interp_le m (n + m) (q a) s1 _ ltac:(lia) E2).
  Qed.

  Lemma tw_seq {A B} (p : prog A) (q : A -> prog B) st (R : A -> tst -> Prop) Q :
    tw p st R -> (forall a st', R a st' -> tw (q a) st' Q) -> tw (pbind p q) st Q.
  Proof. intros H1 H2. apply tw_bind. eapply tw_mono; eauto. Qed.

  Lemma tw_call f st Q : tw (body f) st Q -> tw (call f) st Q.
  Proof.
    intros H s R. destruct (H s R) as (n & a & s' & st' & E & R' & X). exists (S n), a, s', st'.
    split; [|auto]. unfold call. cbn [interp run]. rewrite E. reflexivity.
  Qed.

  Lemma tw_callk {A} f (k : fn_ret f -> prog A) st Q : tw (call f) st (fun a st' => tw (k a) st' Q) -> tw (Call f k) st Q.
  Proof. intros H. exact (tw_bind (call f) k st Q H). Qed.

  (** ** Commands *)
  Lemma tw_do {A B} (c : cmd B) (k : B -> prog A) st Q :
    (forall s, trel s st -> exists b s' st', exec c s = Ok (b, s') /\ trel s' st' /\ tw (k b) st' Q) ->
    tw (Do c k) st Q.
  Proof.
    intros H s R. destruct (H s R) as (b & s' & st' & E & R' & X).
    destruct (X s' R') as (n & a & s2 & st2 & E2 & R2 & H2). exists n, a, s2, st2.
    split; [|auto]. cbn [interp]. rewrite E. cbn [bind]. exact E2.
  Qed.

  Lemma tw_current {A} (k : kind -> prog A) st Q : tw (k (gcur (s_toks st))) st Q -> tw (Do CCurrent k) st Q.
  Proof.
    intros H. apply tw_do. intros s R. exists (gcur (s_toks st)), s, st. split; [|auto].
    cbn [exec]. destruct (q_lex _ _ R) as (ws & rest & len & I & _). unfold lx_current.
    rewrite (li_tok _ _ _ _ _ _ I), kind_trunc. reflexivity.
  Qed.

  Definition tick (st : tst) : tst := TS (s_toks st) (s_last st) (s_kids st) (s_stack st) (s_spent st + 1).

  Lemma trel_tick s st : trel s st -> trel (PState (ps_lexer s) (ps_events s) (ps_steps s + 1)) (tick st).
  Proof. intros []. constructor; cbn [ps_lexer ps_events ps_steps tick s_toks s_last s_kids s_stack s_spent]; auto. lia. Qed.

  Lemma nth_ok n s st tok : (n <= 3)%nat -> trel s st -> s_spent st <= 10000 ->
    lx_lookahead_nth (ps_lexer s) n = Ok tok ->
    exec (CNth n) s = Ok (t_kind tok, PState (ps_lexer s) (ps_events s) (ps_steps s + 1)).
  Proof.
    intros Hn R H E. cbn [exec]. unfold exec_nth.
    replace (Nat.leb n 3) with true by (symmetry; apply Nat.leb_le; exact Hn).
    pose proof (q_spent _ _ R). replace (ps_steps s <=? 10000) with true by (symmetry; lia).
    cbn [assert_ bind]. rewrite E. reflexivity.
  Qed.

  Lemma tw_nth0 {A} (k : kind -> prog A) st Q : s_spent st <= 10000 ->
    tw (k (gcur (s_toks st))) (tick st) Q -> tw (Do (CNth 0) k) st Q.
  Proof.
    intros H HK. apply tw_do. intros s R. destruct (q_lex _ _ R) as (ws & rest & len & I & _).
    eexists _, _, (tick st). split; [apply (nth_ok 0 s st (lx_token (ps_lexer s)) ltac:(lia) R H); reflexivity|].
    split; [apply trel_tick; exact R|]. unfold lx_current.
    rewrite (li_tok _ _ _ _ _ _ I), kind_trunc. exact HK.
  Qed.

  (** the raw pieces after the current token *)
  Lemma steps_cons_inv rest k w ws e : steps rest ((k, w) :: ws) e -> exists b,
    rest = w ++ b /\ find_token rest = Ok (k, tlen w) /\ steps b ws e.
  Proof. intros H. inversion H as [|? ? b ? ? F S]; subst. eauto. Qed.

  Lemma trim_steps b tr rest : steps b tr rest -> Forall trivia_piece tr ->
    forall k n, find_token rest = Ok (k, n) -> is_trivia k = false ->
    exists k1 n1, find_token (trim_start b) = Ok (k1, n1) /\
      (Exists (fun p => fst p = COMMENT) tr /\ k1 = COMMENT \/ k1 = k).
  Proof.
    induction 1 as [x|k0 w x ws rest F S IH]; intros Ft k n Fr Hk.
    - exists k, n. split; [|auto]. erewrite trim_start_stop; [exact Fr|exact Fr|]. intros ->. discriminate.
    - inversion Ft as [|? ? Ft1 Ft2]; subst. unfold trivia_piece in Ft1. cbn [fst] in *.
      assert (E : k0 = WHITESPACE \/ k0 = COMMENT) by (destruct k0; try discriminate Ft1; auto).
      destruct E as [-> | ->].
      + rewrite trim_start_blank by (eapply whitespace_piece; eauto).
        destruct (IH Ft2 _ _ Fr Hk) as (k1 & n1 & H1 & [[H2 H3]|H2]); exists k1, n1; (split; [exact H1|]); auto.
      + exists COMMENT, (tlen w). split; [|left; split; [left; reflexivity|reflexivity]].
        erewrite trim_start_stop; [exact F|exact F|discriminate].
  Qed.

  Lemma ungroup_cons g gs : ungroup (g :: gs) = (fst g :: snd g) ++ ungroup gs.
  Proof. reflexivity. Qed.

  (** The text where the next group starts *)
  Lemma steps_split a : forall b x e, steps x (a ++ b) e -> exists mid, steps x a mid /\ steps mid b e.
  Proof.
    induction a as [|[k w] a IH]; intros b x e H; cbn [app] in H.
    - exists x. split; [constructor|exact H].
    - apply steps_cons_inv in H as (y & -> & F & S). destruct (IH _ _ _ S) as (mid & S1 & S2).
      exists mid. split; [constructor; auto|exact S2].
  Qed.

  Lemma steps_head x gs : steps x (ungroup gs) [] -> exists n, find_token x = Ok (gcur gs, n).
  Proof.
    destruct gs as [|[[k w] tr] gs]; intros H.
    - cbn [ungroup flat_map] in H. inversion H; subst. exists 0. reflexivity.
    - rewrite ungroup_cons in H. cbn [fst snd app] in H. apply steps_cons_inv in H as (y & _ & F & _). exists (tlen w). exact F.
  Qed.

  Lemma solid_cur gs : Forall solid gs -> is_trivia (gcur gs) = false.
  Proof. destruct gs as [|g gs]; intros H; [reflexivity|]. inversion H; auto. Qed.

  (** the state of the lexer at a group, spelled out *)
  Lemma trel_group s st g gs : trel s st -> s_toks st = g :: gs ->
    exists ws b mid, lx_inv t (ps_lexer s) ws (snd (fst g) ++ b) (fst (fst g)) (tlen (snd (fst g))) /\
      steps b (snd g) mid /\ steps mid (ungroup gs) [] /\ Forall trivia_piece (snd g) /\ fst (fst g) <> EOF /\
      Forall solid gs /\ Forall group_ok gs.
  Proof.
    intros R E. destruct (q_lex _ _ R) as (ws & rest & len & I & S). rewrite E in *.
    pose proof (q_groups _ _ R) as G. rewrite E in G. inversion G as [|? ? [G1 G2] G3]; subst.
    pose proof (q_solid _ _ R) as D. rewrite E in D. cbn [tl] in D.
    destruct g as [[k w] tr]. rewrite ungroup_cons in S. cbn [fst snd gcur app] in *.
    apply steps_cons_inv in S as (b & -> & F & S). apply steps_split in S as (mid & S1 & S2).
    exists ws, b, mid. pose proof (li_cur _ _ _ _ _ _ I) as C. rewrite C in F. injection F as ->. auto 10.
  Qed.

  Lemma tw_nth1 {A} (k : kind -> prog A) st Q : s_spent st <= 10000 ->
    (gcur (s_toks st) = IDENT \/ gcur (s_toks st) = INTEGER_NUMBER) ->
    (forall x, (forall o, opens o -> kind_eqb x o = kind_eqb (gcur (tl (s_toks st))) o) -> tw (k x) (tick st) Q) ->
    tw (Do (CNth 1) k) st Q.
  Proof.
    intros H Hc HK. apply tw_do. intros s R. destruct (s_toks st) as [|g gs] eqn:E.
    { cbn in Hc. destruct Hc; discriminate. }
    destruct (trel_group _ _ _ _ R E) as (ws & b & mid & I & S1 & S2 & Ft & _ & D & _).
    destruct (steps_head _ _ S2) as [n F].
    destruct (trim_steps _ _ _ S1 Ft _ _ F (solid_cur _ D)) as (k1 & n1 & F1 & K).
    assert (L : lx_lookahead_nth (ps_lexer s) 1 = Ok (token_new k1 n1)).
    { cbn [lx_lookahead_nth]. unfold lx_lookahead. rewrite (inv_slice_ok _ _ _ _ _ _ I). cbn [bind].
      rewrite F1. reflexivity. }
    eexists _, _, (tick st). split; [apply (nth_ok 1 s st _ ltac:(lia) R H L)|].
    split; [apply trel_tick; exact R|]. rewrite kind_trunc. apply HK. intros o Ho.
    destruct K as [[K1 ->]| ->]; [|reflexivity].
    pose proof (q_layout _ _ R) as Y. rewrite E in Y. destruct Y as (Y & _).
    cbn [tl gcur] in *. specialize (Y Hc K1).
    destruct (kind_eqb (gcur gs) o) eqn:X.
    - apply kind_eqb_eq in X. subst o. contradiction.
    - destruct Ho as [-> | [-> | ->]]; reflexivity.
  Qed.

  (** looking two tokens ahead never fails, and sees no star or brace after
      a [::] and a name *)
  Lemma tw_nth2 {A} (k : kind -> prog A) st Q : s_spent st <= 10000 ->
    (forall x, (gcur (s_toks st) = COLON_COLON -> gcur (tl (s_toks st)) = IDENT -> x <> STAR /\ x <> L_BRACE) ->
       tw (k x) (tick st) Q) ->
    tw (Do (CNth 2) k) st Q.
  Proof.
    intros H HK. apply tw_do. intros s R. destruct (s_toks st) as [|g gs] eqn:E.
    { destruct (q_lex _ _ R) as (ws & rest & len & I & S). rewrite E in *. cbn [ungroup flat_map] in S.
      inversion S; subst. pose proof (li_cur _ _ _ _ _ _ I) as C. change (find_token []) with (Ok (EOF, 0) : res (kind * N)) in C. injection C as <-.
      assert (L : lx_lookahead_nth (ps_lexer s) 2 = Ok (token_new EOF 0)).
      { cbn [lx_lookahead_nth]. unfold lx_lookahead_2.
        pose proof (inv_slice_ok t (ps_lexer s) ws [] [] EOF) as X. cbn [app tlen] in X. rewrite (X I). cbn [bind].
        rewrite find_token_nil. cbn [bind tlen].
        assert (Y : slice_from (lx_text (ps_lexer s)) (tlen (lx_text (ps_lexer s)) - 0 + 0) = Ok []).
        { replace (tlen (lx_text (ps_lexer s)) - 0 + 0) with (tlen (lx_text (ps_lexer s))) by lia.
          pose proof (slice_from_app (lx_text (ps_lexer s)) []) as Z. rewrite app_nil_r in Z. exact Z. }
        rewrite Y. cbn [bind]. rewrite find_token_nil. reflexivity. }
      eexists _, _, (tick st). split; [apply (nth_ok 2 s st _ ltac:(lia) R H L)|].
      split; [apply trel_tick; exact R|]. rewrite kind_trunc. apply HK. cbn. discriminate. }
    destruct (trel_group _ _ _ _ R E) as (ws & b & mid & I & S1 & S2 & Ft & _ & D & G).
    (* the two pieces after the current one *)
    assert (P : exists k1 w1 b1 k2 n2, b = w1 ++ b1 /\ find_token b = Ok (k1, tlen w1) /\ find_token b1 = Ok (k2, n2) /\
      (gcur gs = IDENT -> fst (fst g) = COLON_COLON -> k2 <> STAR /\ k2 <> L_BRACE)).
    { pose proof (q_layout _ _ R) as Y. rewrite E in Y. destruct Y as (_ & Y & _).
      destruct g as [[kg wg] [|[k1 w1] [|[k2 w2] tr]]]; cbn [fst snd] in *.
      - inversion S1; subst. destruct gs as [|[[k1 w1] tr1] gs].
        + inversion S2; subst. exists EOF, [], [], EOF, 0. split; [reflexivity|]. split; [reflexivity|]. split; [reflexivity|]. intros X; discriminate X.
        + rewrite ungroup_cons in S2. cbn [fst snd app] in S2. apply steps_cons_inv in S2 as (b1 & -> & F1 & S2).
          destruct tr1 as [|[k2 w2] tr1].
          * cbn [app] in S2. destruct (steps_head _ _ S2) as [n F2]. exists k1, w1, b1, (gcur gs), n.
            do 3 (split; [auto|]). cbn [gcur fst snd] in *. intros K1 K0. destruct (Y K0 K1 eq_refl eq_refl). auto.
          * cbn [app] in S2. apply steps_cons_inv in S2 as (b2 & -> & F2 & S2). exists k1, w1, (w2 ++ b2), k2, (tlen w2).
            do 3 (split; [auto|]). inversion G as [|? ? [G1 _] _]; subst. cbn [snd] in G1. inversion G1; subst.
            unfold trivia_piece in *. cbn [fst] in *. split; intros ->; discriminate.
      - apply steps_cons_inv in S1 as (b1 & -> & F1 & S1). inversion S1; subst.
        destruct (steps_head _ _ S2) as [n F2]. exists k1, w1, mid, (gcur gs), n. do 3 (split; [auto|]).
        intros -> _. split; discriminate.
      - apply steps_cons_inv in S1 as (b1 & -> & F1 & S1). apply steps_cons_inv in S1 as (b2 & -> & F2 & S1).
        exists k1, w1, (w2 ++ b2), k2, (tlen w2). do 3 (split; [auto|]).
        inversion Ft as [|? ? _ Ft']; subst. inversion Ft'; subst. unfold trivia_piece in *. cbn [fst] in *.
        split; intros ->; discriminate. }
    destruct P as (k1 & w1 & b1 & k2 & n2 & -> & F1 & F2 & P).
    assert (L : lx_lookahead_nth (ps_lexer s) 2 = Ok (token_new k2 n2)).
    { cbn [lx_lookahead_nth]. unfold lx_lookahead_2. rewrite (inv_slice_ok _ _ _ _ _ _ I). cbn [bind].
      rewrite F1. cbn [bind].
      assert (X : tlen (lx_text (ps_lexer s)) - tlen (w1 ++ b1) + tlen w1 = tlen (pieces ws ++ snd (fst g) ++ w1)).
      { rewrite (li_text _ _ _ _ _ _ I), (steps_text _ _ _ (li_steps _ _ _ _ _ _ I)), !tlen_app. lia. }
      rewrite X. rewrite (li_text _ _ _ _ _ _ I), (steps_text _ _ _ (li_steps _ _ _ _ _ _ I)).
      rewrite (app_assoc (snd (fst g)) w1 b1), (app_assoc (pieces ws)), slice_from_app. cbn [bind]. rewrite F2. reflexivity. }
    eexists _, _, (tick st). split; [apply (nth_ok 2 s st _ ltac:(lia) R H L)|].
    split; [apply trel_tick; exact R|]. rewrite kind_trunc. apply HK. cbn [gcur tl]. auto.
  Qed.

  Lemma tw_text {A} (k : text -> prog A) st Q g gs : s_toks st = g :: gs -> tw (k (snd (fst g))) st Q ->
    tw (Do CCurrentText k) st Q.
  Proof.
    intros E HK. apply tw_do. intros s R.
    destruct (trel_group _ _ _ _ R E) as (ws & b & mid & I & _).
    exists (snd (fst g)), s, st. split; [|auto]. cbn [exec]. unfold lx_current_text.
    rewrite (li_text _ _ _ _ _ _ I), (li_end _ _ _ _ _ _ I), (li_start _ _ _ _ _ _ I).
    rewrite (steps_text _ _ _ (li_steps _ _ _ _ _ _ I)), app_assoc, <- tlen_app, slice_to_app. cbn [bind].
    rewrite slice_from_app. reflexivity.
  Qed.

  Lemma tw_start {A} (k : nat -> prog A) st Q :
    (forall m, tw (k m) (TS (s_toks st) None [] (Open m None (s_kids st) :: s_stack st) (s_spent st)) Q) ->
    tw (Do CStart k) st Q.
  Proof.
    intros HK. apply tw_do. intros s R. cbn [exec exec_start]. eexists _, _, _. split; [reflexivity|].
    split; [|apply HK]. destruct R.
    constructor; cbn [s_toks s_last s_kids s_stack s_spent push_event ps_events ps_lexer ps_steps]; auto.
    - change [tombstone] with (tombstone :: []). apply lay_start; [assumption|constructor].
    - exact I.
  Qed.

  Lemma layout_tl gs : layout gs -> layout (tl gs).
  Proof. destruct gs; [auto|]. intros (_ & _ & H). exact H. Qed.

  Lemma tw_bump {A} (k0 : kind) (k : unit -> prog A) st Q g gs : s_toks st = g :: gs ->
    tw (k tt) (TS gs None (s_kids st ++ [TTok k0]) (s_stack st) (s_spent st)) Q ->
    tw (Do (CDoBump k0) k) st Q.
  Proof.
    intros E HK. apply tw_do. intros s R.
    destruct (trel_group _ _ _ _ R E) as (ws & b & mid & I & S1 & S2 & Ft & Hne & D & G).
    pose proof (steps_app _ _ _ _ _ S1 S2) as S.
    assert (SB : steps (snd (fst g) ++ b) ((fst (fst g), snd (fst g)) :: snd g ++ ungroup gs) []).
    { constructor; [exact (li_cur _ _ _ _ _ _ I)|exact S]. }
    destruct (bump_ok _ _ _ _ _ _ _ I SB) as [lx' B].
    destruct (bump_inv _ _ _ _ _ _ _ I B) as (w & tr & rest' & k' & len' & L & Ft' & S' & Hk & I').
    eexists tt, _, _. split; [cbn [exec]; unfold exec_do_bump; rewrite B; reflexivity|].
    split; [|exact HK].
    constructor; cbn [s_toks s_last s_kids s_stack s_spent ps_events ps_lexer ps_steps].
    - apply lay_app; [exact (q_lay _ _ R)|]. repeat constructor.
    - exact Logic.I.
    - inversion S' as [|? ? b' ? ? F' S'' Eb]; subst.
      assert (w = snd (fst g)) by (apply (tlen_prefix_inj w b' (snd (fst g)) b); auto). subst w.
      apply app_inv_head in Eb. subst b'.
      (* the trivia run is the same *)
      assert (X : tr = snd g /\ rest' = mid).
      { clear - S1 S'' Ft Ft' S2 Hk I' D. revert b S1 S''. pose proof (li_cur _ _ _ _ _ _ I') as C. clear I'.
        destruct (steps_head _ _ S2) as [n Fm]. pose proof (solid_cur _ D) as Sc.
        revert tr Ft'. generalize dependent (snd g). clear g. intros tg Ft. induction Ft as [|[k1 w1] tg H1 H2 IH]; intros tr Ft' b S1 S''.
        - inversion S1; subst. inversion S'' as [|k2 w2 ? ? ? F2 X]; subst; [auto|].
          inversion Ft' as [|? ? T _]; subst. unfold trivia_piece in T. cbn [fst] in T. congruence.
        - apply steps_cons_inv in S1 as (b1 & -> & F1 & S1).
          inversion S'' as [|k2 w2 b2 ? ? F2 X Eb]; subst.
          + unfold trivia_piece in H1. cbn [fst] in H1. congruence.
          + rewrite Eb in F2. rewrite F1 in F2. injection F2 as <- Ew.
            assert (w1 = w2) by (apply (tlen_prefix_inj w1 b1 w2 b2); auto). subst w2.
            apply app_inv_head in Eb. subst b2. inversion Ft'; subst.
            destruct (IH _ H4 _ S1 X) as [-> ->]. auto. }
      destruct X as [-> ->].
      exists (ws ++ (fst (fst g), snd (fst g)) :: snd g), mid, len'. split; [|exact S2].
      destruct (steps_head _ _ S2) as [n F]. pose proof (li_cur _ _ _ _ _ _ I') as C. rewrite F in C.
      injection C as <- _. exact I'.
    - exact G.
    - destruct gs; [constructor|]. inversion D; auto.
    - pose proof (layout_tl _ (q_layout _ _ R)) as Y. rewrite E in Y. exact Y.
    - exact (q_spent _ _ R).
  Qed.

  Lemma tw_complete {A} m k0 (k : cmark -> prog A) st Q o stk : s_stack st = o :: stk -> o_pos o = m -> k0 <> TOMBSTONE ->
    (forall c, tw (k c) (TS (s_toks st) (Some c) (o_before o ++ [TNode k0 (opt_tree (o_first o) ++ s_kids st)]) stk (s_spent st)) Q) ->
    tw (Do (CComplete m k0) k) st Q.
  Proof.
    intros Es <- Hk HK. apply tw_do. intros s R. pose proof (q_lay _ _ R) as RL. rewrite Es in RL.
    destruct (lay_pos _ _ _ _ RL) as (fp & E & ->). cbn [exec]. unfold exec_complete. rewrite E.
    destruct (lay_complete _ _ _ _ k0 RL Hk) as (evs0 & n & off & E2 & L0 & C & Ep).
    eexists _, _, _. split; [reflexivity|]. split; [|apply HK].
    destruct R. constructor; cbn [s_toks s_last s_kids s_stack s_spent with_events ps_events ps_lexer ps_steps]; auto.
    - rewrite E2. apply lay_app; [exact L0|]. rewrite <- (app_nil_r n). eapply den_node; [exact C|constructor].
    - unfold last_ok. cbn [a_last a_kids a_stack]. rewrite E2. do 5 eexists.
      split; [reflexivity|]. split; [reflexivity|]. split; [exact L0|]. split; [exact C|]. exact Ep.
  Qed.

  Lemma tw_precede {A} c (k : nat -> prog A) st Q f0 x : s_last st = Some c -> s_kids st = f0 ++ [x] ->
    (forall m, tw (k m) (TS (s_toks st) None [] (Open m (Some x) f0 :: s_stack st) (s_spent st)) Q) ->
    tw (Do (CPrecede c) k) st Q.
  Proof.
    intros Hl Ek HK. apply tw_do. intros s R. pose proof (q_last _ _ R) as RLa. unfold last_ok in RLa.
    cbn [a_last a_kids a_stack] in RLa. rewrite Hl in RLa.
    destruct RLa as (evs0 & n & tr' & off & f0' & Ee & Ek' & L0 & C & Ec).
    rewrite Ek in Ek'. apply app_inj_tail in Ek' as [<- <-].
    destruct (chain_at _ _ _ _ C) as [Ho [k1 Hk]].
    cbn [exec]. unfold exec_precede. cbn [exec_start push_event ps_events].
    rewrite Ee, Ec. rewrite <- app_assoc, nth_error_app_r, nth_error_app1, Hk by exact Ho.
    rewrite app_length.
    destruct (Nat.leb (length evs0 + off) (length evs0 + length n)) eqn:El; [|lia].
    cbn [bind]. eexists _, _, _. split; [reflexivity|]. split; [|apply HK].
    rewrite set_nth_app_r, set_nth_app_l by exact Ho.
    replace (length evs0 + length n - (length evs0 + off))%nat with (length n - off)%nat by lia.
    destruct R. constructor; cbn [s_toks s_last s_kids s_stack s_spent with_events ps_events ps_lexer ps_steps]; auto.
    - change [tombstone] with (tombstone :: []). eapply lay_precede; eauto. constructor.
    - exact Logic.I.
  Qed.

  Lemma tw_assert {A} (b : bool) (k : unit -> prog A) st Q : b = true -> tw (k tt) st Q -> tw (Do (CAssert b) k) st Q.
  Proof. intros -> HK. apply tw_do. intros s R. exists tt, s, st. auto. Qed.
End Text.
