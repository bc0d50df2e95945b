(** The parser gives up after 10 000 lookaheads: a run that may also end in a
    failed assertion. *)
From Coq Require Import String.
From Verif Require Import Base BaseProofs Kinds KindsProofs LexSpec Lexer LexerRuns LexerProofs LexerStateProofs
  Parser Grammar Sink TreeSpec GreenSpec ParserLogic ParseProofs TermProofs ParserTotal SyntaxSpec AcceptRules AcceptTop.
Local Open Scope N_scope.

Section Text.
  Variable t : text.

  (** the program returns in a state with [Q], or fails an assertion *)
  Definition ow {A} (p : prog A) (st : tst) (Q : A -> tst -> Prop) : Prop :=
    forall s, trel t s st -> exists n, interp (run n) p s = Panic PAssert \/
      exists a s' st', interp (run n) p s = Ok (a, s') /\ trel t s' st' /\ Q a st'.

  Lemma ow_tw {A} (p : prog A) st (Q : A -> tst -> Prop) : tw t p st Q -> ow p st Q.
  Proof. intros H s R. destruct (H s R) as (n & a & s' & st' & H'). exists n. right. eauto. Qed.

  Lemma interp_le_panic n m {A} (p : prog A) s w : (n <= m)%nat -> interp (run n) p s = Panic w -> interp (run m) p s = Panic w.
  Proof. intros L H. rewrite <- H. apply interp_more; [|congruence]. intros f s' X. apply run_more; auto. Qed.

  Lemma ow_bind {A B} (p : prog A) (q : A -> prog B) st (Q : B -> tst -> Prop) :
    ow p st (fun a st' => ow (q a) st' Q) -> ow (pbind p q) st Q.
  Proof.
    intros H s R. destruct (H s R) as [n [P|(a & s1 & st1 & E & R1 & H1)]].
    - exists n. left. rewrite interp_bind, P. reflexivity.
    - destruct (H1 s1 R1) as [m H2]. exists (n + m)%nat. rewrite interp_bind.
      rewrite (interp_le n (n + m) p s _ ltac:(lia) E). cbn [bind].
      destruct H2 as [P|(b & s2 & st2 & E2 & R2 & X)].
      + left. exact (interp_le_panic m (n + m) _ _ _ ltac:(lia) P).
      + right. exists b, s2, st2. split; [exact (interp_le m (n + m) _ _ _ ltac:(lia) E2)|auto].
  Qed.

  Lemma ow_call f st (Q : fn_ret f -> tst -> Prop) : ow (body f) st Q -> ow (call f) st Q.
  Proof.
    intros H s R. destruct (H s R) as [n [P|(a & s' & st' & E & R' & X)]]; exists (S n); unfold call; cbn [interp run].
    - left. rewrite P. reflexivity.
    - right. exists a, s', st'. rewrite E. auto.
  Qed.

  Lemma nth_limit n s st : (n <= 3)%nat -> trel t s st -> 10000 < s_spent st -> exec (CNth n) s = Panic PAssert.
  Proof.
    intros Hn R L. cbn [exec]. unfold exec_nth. replace (Nat.leb n 3) with true by (symmetry; apply Nat.leb_le; exact Hn).
    pose proof (q_spent _ _ _ R). replace (ps_steps s <=? 10000) with false by (symmetry; lia). reflexivity.
  Qed.
  Lemma ow_nth n st (Q : kind -> tst -> Prop) : (n <= 3)%nat ->
    (s_spent st <= 10000 -> ow (nth_ n) st Q) -> ow (nth_ n) st Q.
  Proof.
    intros Hn H. destruct (N.le_gt_cases (s_spent st) 10000) as [L|L]; [auto|].
    intros s R. exists O. left. unfold nth_, do_. cbn [interp]. rewrite (nth_limit n s st Hn R L). reflexivity.
  Qed.

  Lemma o_at k gs l ks stk sp (Q : bool -> tst -> Prop) : Q (kind_eqb (gcur gs) k) (TS gs l ks stk (sp + 1)) ->
    ow (at_ k) (TS gs l ks stk sp) Q.
  Proof.
    intros H. unfold at_, nth_at. apply ow_bind. apply ow_nth; [lia|]. cbn [s_spent]. intros L.
    apply ow_tw. apply tw_nth0; [exact L|]. apply tw_ret. apply ow_tw. apply tw_ret. exact H.
  Qed.
  Lemma o_nth1 k g gs l ks stk sp (Q : bool -> tst -> Prop) : fst (fst g) = IDENT -> opens k ->
    Q (kind_eqb (gcur gs) k) (TS (g :: gs) l ks stk (sp + 1)) -> ow (nth_at 1 k) (TS (g :: gs) l ks stk sp) Q.
  Proof.
    intros E O H. unfold nth_at. apply ow_bind. apply ow_nth; [lia|]. cbn [s_spent]. intros L.
    apply ow_tw. apply r_nth1; [exact L|auto|]. intros x Hx. apply ow_tw. apply tw_ret. rewrite Hx by exact O. exact H.
  Qed.
  Lemma o_eat k g gs l ks stk sp (Q : bool -> tst -> Prop) : fst (fst g) = k ->
    Q true (TS gs None (ks ++ [TTok k]) stk (sp + 1)) -> ow (eat k) (TS (g :: gs) l ks stk sp) Q.
  Proof.
    intros E H. unfold eat. apply ow_bind. apply o_at. cbn [gcur]. rewrite E, kind_eqb_refl. apply ow_bind.
    apply ow_tw. apply r_do_bump. apply ow_tw. apply tw_ret. exact H.
  Qed.
  Lemma o_assert (p : prog bool) st (Q : unit -> tst -> Prop) : ow p st (fun b st' => b = true /\ Q tt st') -> ow (assert_p p) st Q.
  Proof.
    intros H. apply ow_bind. intros s R. destruct (H s R) as [n [P|(b & s' & st' & E & R' & -> & X)]]; exists n; [left; exact P|right].
    exists true, s', st'. split; [exact E|]. split; [exact R'|]. apply ow_tw. apply tw_assert; [reflexivity|]. apply tw_ret. exact X.
  Qed.
  Lemma o_bump k g gs l ks stk sp (Q : unit -> tst -> Prop) : fst (fst g) = k ->
    Q tt (TS gs None (ks ++ [TTok k]) stk (sp + 1)) -> ow (bump k) (TS (g :: gs) l ks stk sp) Q.
  Proof. intros E H. apply o_assert. apply o_eat; auto. Qed.
  Lemma o_name g gs l ks stk sp (Q : unit -> tst -> Prop) : fst (fst g) = IDENT ->
    (forall l, Q tt (TS gs l (ks ++ [name_node]) stk (sp + 2))) -> ow name (TS (g :: gs) l ks stk sp) Q.
  Proof.
    intros E H. unfold name, name_r. apply ow_bind. apply o_at. cbn [gcur]. rewrite E. change (kind_eqb IDENT IDENT) with true.
    cbv iota. apply ow_bind. apply ow_tw. apply r_start. intros m. apply ow_bind. apply o_bump; [exact E|].
    apply ow_bind. apply ow_tw. apply r_complete; [discriminate|]. intros c. apply ow_tw. apply tw_ret.
    cbn [opt_tree app]. replace (sp + 1 + 1) with (sp + 2) by lia. apply H.
  Qed.

  (** ** A file of [n] empty modules *)
  Definition unit_ : list group :=
    [((MODULE_KW, `"module"), [(WHITESPACE, `" ")]); ((IDENT, `"M"), []); ((SEMICOLON, `";"), [])].
  Fixpoint units (n : nat) : list group := match n with O => [] | S n => unit_ ++ units n end.

  Lemma module_costs gs l ks stk sp (Q : unit -> tst -> Prop) :
    (forall l ks, Q tt (TS gs l ks stk (sp + 7))) -> ow module (TS (unit_ ++ gs) l ks stk sp) Q.
  Proof.
    intros H. unfold module, unit_. cbn [app]. apply ow_bind. apply ow_tw. apply r_start. intros m.
    apply ow_bind. apply o_assert. apply o_at. cbn [gcur fst]. split; [reflexivity|].
    apply ow_bind. apply o_bump; [reflexivity|]. apply ow_bind. apply o_nth1; [reflexivity|unfold opens; auto|].
    cbn [gcur fst]. change (kind_eqb SEMICOLON COLON_COLON) with false. cbv iota.
    apply ow_bind. apply ow_tw. apply tw_ret. apply ow_bind. apply o_name; [reflexivity|]. intros l1.
    apply ow_bind. apply o_at. cbn [gcur fst]. change (kind_eqb SEMICOLON L_BRACE) with false. cbv iota.
    apply ow_bind. apply ow_bind. apply o_eat; [reflexivity|]. cbn [negb]. apply ow_tw. apply tw_ret.
    apply ow_bind. apply ow_tw. apply r_complete; [discriminate|]. intros c. apply ow_tw. apply tw_ret.
    replace (sp + 1 + 1 + 1 + 2 + 1 + 1) with (sp + 7) by lia. apply H.
  Qed.

  Lemma root_limit n : forall l ks stk sp, 10000 < sp + 9 * N.of_nat n ->
    ow (call F_root) (TS (units n) l ks stk sp) (fun _ _ => False).
  Proof.
    induction n as [|n IH]; intros l ks stk sp L; apply (ow_call F_root); cbn [body]; unfold root_body; apply ow_bind.
    - intros s R. exists O. left. unfold at_, nth_at, nth_, do_. cbn [pbind interp].
      rewrite (nth_limit 0 s _ ltac:(lia) R); [reflexivity|]. cbn [s_spent]. lia.
    - cbn [units]. apply o_at. cbn [gcur unit_ app fst]. change (kind_eqb MODULE_KW EOF) with false. cbv iota.
      apply ow_bind. apply o_at. cbn [gcur fst]. change (kind_eqb MODULE_KW MODULE_KW) with true. cbv iota.
      apply ow_bind. apply (module_costs (units n)). intros l' ks'. apply IH. lia.
  Qed.
End Text.

Fixpoint modules (n : nat) : text := match n with O => [] | S n => `"module M;" ++ modules n end.

Lemma modules_steps n : steps (modules n) (ungroup (units n)) [].
Proof.
  induction n as [|n IH]; [constructor|]. cbn [modules units]. unfold unit_.
  cbn [app]. rewrite !ungroup_cons. cbn [fst snd app].
  assert (X : forall k w r, find_token (w ++ r) = Ok (k, tlen w) -> forall ws, steps r ws [] -> steps (w ++ r) ((k, w) :: ws) []).
  { intros k w r F ws S. constructor; assumption. }
  apply (X MODULE_KW (`"module") (`" M;" ++ modules n)); [reflexivity|].
  apply (X WHITESPACE (`" ") (`"M;" ++ modules n)); [reflexivity|].
  apply (X IDENT (`"M") (`";" ++ modules n)); [reflexivity|].
  apply (X SEMICOLON (`";") (modules n)); [reflexivity|]. exact IH.
Qed.

Lemma units_layout n : layout (units n).
Proof.
  induction n as [|n IH]; [exact I|]. cbn [units unit_ app].
  split; [intros [E|E]; discriminate E|]. split; [intros E; discriminate E|].
  split; [intros _ E; inversion E|]. split; [intros E; discriminate E|].
  split; [intros [E|E]; discriminate E|]. split; [destruct (units n); [exact I|intros E; discriminate E]|exact IH].
Qed.

Lemma modules_panic n : (1112 <= n)%nat -> tlen (modules n) < u32_bound -> parse_text (modules n) = Panic PAssert.
Proof.
  intros Hn Hs. pose proof (modules_steps n) as S.
  assert (HL : exists lx, lexer_new (modules n) = Ok lx).
  { unfold lexer_new. destruct n as [|n]; [lia|]. eexists. reflexivity. }
  destruct HL as [lx HL]. unfold parse_text. rewrite HL. cbn [bind]. unfold parse_with_lexer.
  pose proof (parse_ends _ lx HL) as NF. unfold parse_with_lexer in NF.
  assert (G : Forall group_ok (units n) /\ Forall solid (units n)).
  { clear. induction n as [|n [I1 I2]]; [split; constructor|]. cbn [units unit_ app].
    split; repeat (constructor; [repeat split; try discriminate; repeat constructor|]); assumption. }
  destruct G as [G1 G2].
  assert (R : trel (modules n) (parser_new lx) (TS (units n) None [] [] 0)).
  { destruct (lexer_new_inv _ _ HL) as (k & len & I).
    constructor; cbn [parser_new ps_lexer ps_events ps_steps s_toks s_last s_kids s_stack s_spent]; auto.
    - apply lay_base. constructor.
    - exact Logic.I.
    - exists [], (modules n), len. split; [|exact S]. destruct (steps_head _ _ S) as [m Fn]. rewrite (li_cur _ _ _ _ _ _ I) in Fn.
      injection Fn as -> _. exact I.
    - destruct G2; [constructor|assumption].
    - apply units_layout. }
  assert (W : ow (modules n) root (TS (units n) None [] [] 0) (fun _ _ => False)).
  { unfold root. apply ow_bind. apply ow_tw. apply r_start. intros m. apply ow_bind.
    intros s Rs. destruct (root_limit (modules n) n None [] [Open m None []] 0 ltac:(lia) s Rs) as [k [P|(? & ? & ? & _ & _ & [])]].
    exists k. left. exact P. }
  destruct (W _ R) as [k [P|(? & ? & ? & _ & _ & [])]].
  set (d := parse_fuel (lx_text lx)) in *.
  assert (E : interp (run d) root (parser_new lx) = Panic PAssert).
  { destruct (Nat.le_ge_cases k d) as [Le|Le].
    - exact (interp_le_panic k d root _ _ Le P).
    - rewrite <- P. symmetry. apply interp_more; [intros f' s' X; apply run_more; auto|].
      intros X. rewrite X in NF. apply NF. reflexivity. }
  rewrite E. reflexivity.
Qed.

(** ** The modules are a core program *)
Fixpoint module_trees (n : nat) : list tree :=
  match n with
  | O => []
  | S n => TNode MODULE_DEF [TTok MODULE_KW; name_node; TTok SEMICOLON] :: module_trees n
  end.
Lemma modules_ascii n : ascii (modules n).
Proof.
  induction n as [|n IH]; [constructor|]. unfold ascii in *. cbn [modules]. apply Forall_app. split; [|exact IH].
  repeat (constructor; [reflexivity|]). constructor.
Qed.
Lemma modules_core n : core_program (modules n) (module_trees n).
Proof.
  pose proof (modules_steps n) as S.
  assert (A : ascii_strings (modules n)).
  { pose proof (modules_ascii n) as H. intros a w b E _. rewrite E in H. unfold ascii in *.
    apply Forall_app in H as [_ H]. apply Forall_app in H as [H _]. exact H. }
  constructor.
  - clear. induction n as [|n IH]; [constructor|]. cbn [module_trees]. apply g_file; [|exact IH]. apply g_top_module.
    apply g_module, g_module_semi.
  - exists (ungroup (units n)). split; [|split; [|split]].
    + destruct (steps_stream _ _ _ S eq_refl A) as (ws & m & E & St). rewrite E.
      destruct m as [|m]; [cbn [repeat]; rewrite app_nil_r; exact St|exfalso].
      assert (H : In (EOF, []) (ungroup (units n))) by (rewrite E; apply in_or_app; right; left; reflexivity).
      clear -H. induction n as [|n IH]; [destruct H|]. cbn [units unit_ app] in H. rewrite !ungroup_cons in H.
      cbn [fst snd app In] in H. repeat (destruct H as [H|H]; [discriminate H|]). auto.
    + clear. induction n as [|n IH]; [constructor|]. cbn [units unit_ app module_trees]. rewrite !ungroup_cons.
      cbn [fst snd app flat_map leaves name_node]. unfold proper. cbn [filter fst is_trivia negb]. 
      repeat (constructor; [reflexivity|]). exact IH.
    + intros (a & p & b & w & c & q & d & E & _).
      assert (H : In (COMMENT, w) (ungroup (units n))).
      { rewrite E. apply in_or_app. right. right. apply in_or_app. right. left. reflexivity. }
      clear -H. induction n as [|n IH]; [destruct H|]. cbn [units unit_ app] in H. rewrite !ungroup_cons in H.
      cbn [fst snd app In] in H. repeat (destruct H as [H|H]; [discriminate H|]). auto.
    + intros (a & p & q & r & b & E & P & _).
      assert (H : In p (ungroup (units n))) by (rewrite E; apply in_or_app; right; left; reflexivity).
      clear -H P. induction n as [|n IH]; [destruct H|]. cbn [units unit_ app] in H. rewrite !ungroup_cons in H.
      cbn [fst snd app In] in H. repeat (destruct H as [H|H]; [subst p; discriminate P|]). auto.
Qed.
