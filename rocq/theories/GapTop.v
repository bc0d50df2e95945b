(** Whole unfinished files. *)
From Coq Require Import String.
From Verif Require Import Base BaseProofs Kinds KindsProofs LexSpec TokenSet Lexer LexerRuns LexerProofs LexerStateProofs
  Parser Grammar Sink TreeSpec GreenSpec ParserLogic GrammarProofs ProcessProofs SinkProofs TermProofs ParseProofs ParserTotal SyntaxSpec
  ShapeProofs AcceptRules AcceptProofs AcceptTop GapSpec GapRules GapProofs GapPhrases.
Local Open Scope N_scope.

(** ** Trivia, marks and weights *)
Lemma leaf_solid k p : stands_for k p -> is_trivia (fst p) = false -> is_trivia k = false.
Proof. intros S T. apply token_kind_stands in S. rewrite S in T. destruct k; try reflexivity; exact T. Qed.
Lemma proper_solid ws : Forall (fun p => is_trivia (fst p) = false) (proper ws).
Proof. apply Forall_forall. intros p H. apply filter_In in H as [_ H]. apply negb_true_iff in H. exact H. Qed.

Lemma strip_unmarked x : Forall (fun k => is_trivia k = false) (leaves x) -> strip_tree x = unmarked x.
Proof.
  induction x as [k cs IH|k|m] using tree_ind2; cbn [leaves strip_tree unmarked]; intros F; [|inversion F as [|? ? T _]; rewrite T; reflexivity|reflexivity].
  f_equal. f_equal. induction IH as [|x cs H _ IHcs]; [reflexivity|]. cbn [flat_map] in *. apply Forall_app in F as [F1 F2].
  rewrite H, IHcs by assumption. reflexivity.
Qed.
Lemma strips_unmarked f : Forall (fun k => is_trivia k = false) (flat_map leaves f) -> strip_forest f = flat_map unmarked f.
Proof.
  unfold strip_forest. induction f as [|x f IH]; intros F; [reflexivity|]. cbn [flat_map] in *. apply Forall_app in F as [F1 F2].
  rewrite strip_unmarked, IH by assumption. reflexivity.
Qed.
Lemma errs_complaints x : errs1 x = complaints x.
Proof. induction x using tree_ind2; reflexivity. Qed.
Lemma errs_forest f : flat_map errs1 f = flat_map complaints f.
Proof. induction f as [|x f IH]; [reflexivity|]. cbn [flat_map]. rewrite IH, errs_complaints. reflexivity. Qed.
Lemma loose_node k cs : loose1 (TNode k cs) = (unseparated k cs + loose cs)%nat.
Proof. reflexivity. Qed.
Lemma weight1_parts x : weight1 x = N.of_nat (length (leaves x) + length (complaints x) + loose1 x).
Proof.
  induction x as [k cs IH|k|m] using tree_ind2; [|reflexivity|reflexivity]. rewrite weight_node, loose_node. cbn [leaves complaints].
  assert (E : weight cs = N.of_nat (length (flat_map leaves cs) + length (flat_map complaints cs) + loose cs)).
  { induction IH as [|x cs H _ IHcs]; [reflexivity|]. rewrite weight_cons, H, IHcs. unfold loose. cbn [flat_map fold_right].
    rewrite !app_length. lia. }
  lia.
Qed.
Lemma weight_parts f : weight f = extent f.
Proof.
  unfold extent. induction f as [|x f IH]; [reflexivity|]. rewrite weight_cons, weight1_parts, IH. unfold loose. cbn [flat_map fold_right].
  rewrite !app_length. lia.
Qed.

Lemma lead_trivia lead : strip_forest lead = [] -> flat_map errs1 lead = [] ->
  Forall (fun x => exists k, x = TTok k /\ is_trivia k = true) lead.
Proof.
  unfold strip_forest. induction lead as [|x lead IH]; intros A B; constructor; cbn [flat_map] in A, B;
    apply app_eq_nil in A as [A1 A2]; apply app_eq_nil in B as [B1 B2]; [|auto].
  destruct x as [k cs|k|m]; [discriminate A1| |discriminate B1]. exists k. cbn in A1. destruct (is_trivia k); [auto|discriminate A1].
Qed.
Lemma noted_lead lead f n : Forall (fun x => exists k, x = TTok k /\ is_trivia k = true) lead -> noted n (lead ++ f) = noted n f.
Proof.
  induction 1 as [|x lead (k & -> & K) _ IH]; [reflexivity|]. cbn [app noted noted1]. unfold solid_leaves.
  cbn [flat_map leaves app filter]. rewrite K. cbn [negb length]. rewrite Nat.add_0_r. exact IH.
Qed.
Lemma file_nodes f : gap File f -> forall m, ~ In (TErr m) f.
Proof.
  remember (Core File) as x eqn:E. induction 1; inversion E; subst; intros m H'; cbn [In] in H'; [exact H'|].
  destruct H' as [H'|H']; [|eapply IHgap2; eauto]. subst.
  match goal with H : gap (Core TopItem) _ |- _ => inversion H; subst end.
  match goal with H : gap (Core Module) _ |- _ => inversion H end.
Qed.
Lemma steps_same t ws ws' : steps t ws [] -> Forall (fun p => fst p <> EOF) ws ->
  steps t ws' [] -> Forall (fun p => fst p <> EOF) ws' -> ws = ws'.
Proof.
  intros S R S' R'. destruct (steps_split _ _ _ S' _ S R') as (r & -> & Sr).
  destruct (steps_nil_pieces _ _ Sr) as [_ F]. destruct r as [|q r]; [apply app_nil_r|].
  exfalso. apply Forall_app in R as [_ R]. inversion R; inversion F; subst. auto.
Qed.
Lemma spots_beside ws errs ms : Forall2 (spot ws) errs ms -> Forall2 (beside ws) ms (map (fun e => (se_msg e, se_pos e)) errs).
Proof.
  induction 1 as [|e m errs ms (M & a & b & W & P & C & T) _ IH]; constructor; [|exact IH].
  split; [exact M|]. exists a, b. do 3 (split; [assumption|]). destruct T as [T|T]; [left; exact T|right].
  intros p b' ->. exact T.
Qed.

(** ** The parser *)
Lemma zw_root t f gs l kids stk sp : gap File f -> fit f gs [] -> sp + 5 * weight f + 15 <= 10000 ->
  tw t (call F_root) (TS gs l kids stk sp) (fun _ st => exists l sp, st = TS [] l (kids ++ f) stk sp).
Proof.
  intros G F L. pose proof (gap_stm t _ _ G) as H. cbn [pstm zstm] in H. unfold z_file, z_prog in H.
  specialize (H gs [] l kids stk sp F eq_refl L). rewrite app_nil_r in H.
  eapply tw_mono; [exact H|]. intros a st (l' & sp' & -> & _). eauto.
Qed.

(** blanks or comments in front of everything *)
Lemma zw_root_lead t f gs g l kids stk sp : gap File f -> fit f gs [] -> sp + 5 * weight f + 19 <= 10000 ->
  is_trivia (fst (fst g)) = true ->
  tw t (call F_root) (TS (g :: gs) l kids stk sp)
    (fun _ st => exists l sp, st = TS [] l (kids ++ TTok (fst (fst g)) :: f) stk sp).
Proof.
  intros G F L K. apply (tw_call t F_root). cbn [body]. unfold root_body.
  apply tw_bind. apply r_at; [lia|]. cbn [gcur].
  assert (N : forall k, is_trivia k = false -> kind_eqb (fst (fst g)) k = false).
  { intros k Hk. destruct (kind_eqb (fst (fst g)) k) eqn:E; [|reflexivity]. apply kind_eqb_eq in E. subst k. congruence. }
  rewrite N by reflexivity. cbv iota. apply tw_bind. apply r_at; [lia|]. cbn [gcur]. rewrite N by reflexivity.
  cbv iota. apply tw_bind. apply r_at; [lia|]. cbn [gcur]. rewrite N by reflexivity.
  cbv iota. apply tw_bind. apply r_at; [lia|]. cbn [gcur]. rewrite N by reflexivity.
  cbv iota. apply tw_bind. apply r_current. cbn [gcur]. rewrite K. apply tw_bind.
  apply r_bump_any; [intros E; rewrite E in K; discriminate|].
  eapply tw_mono; [apply (zw_root t f gs); [exact G|exact F|lia]|].
  intros a st (l' & sp' & ->). exists l', sp'. rewrite <- app_assoc. reflexivity.
Qed.

Lemma run_unfinished t f gs lx : gap File f -> lexer_new t = Ok lx -> steps t (ungroup gs) [] ->
  Forall group_ok gs -> Forall solid (tl gs) -> layout gs -> 5 * weight f <= 9981 ->
  (fit f gs [] \/ exists g gs', gs = g :: gs' /\ fit f gs' [] /\ is_trivia (fst (fst g)) = true) ->
  exists n u s lead, interp (run n) root (parser_new lx) = Ok (u, s) /\
    den (ps_events s) [TNode SOURCE_FILE (lead ++ f)] /\ strip_forest lead = [] /\ flat_map errs1 lead = [].
Proof.
  intros G HL S Ok_ Sol Lay L F.
  assert (R : trel t (parser_new lx) (TS gs None [] [] 0)).
  { destruct (lexer_new_inv _ _ HL) as (k & len & I).
    constructor; cbn [parser_new ps_lexer ps_events ps_steps s_toks s_last s_kids s_stack s_spent]; auto; try lia.
    - apply lay_base. constructor.
    - exact Logic.I.
    - exists [], t, len. split; [|exact S]. destruct (steps_head _ _ S) as [n Fn]. rewrite (li_cur _ _ _ _ _ _ I) in Fn.
      injection Fn as -> _. exact I. }
  assert (W : tw t root (TS gs None [] [] 0) (fun _ st => exists lead l sp,
     st = TS [] l [TNode SOURCE_FILE (lead ++ f)] [] sp /\ strip_forest lead = [] /\ flat_map errs1 lead = [])).
  { unfold root. apply tw_bind. apply r_start. intros m. apply tw_bind.
    destruct F as [F|(g & gs' & -> & F & K)].
    - eapply tw_mono; [apply (zw_root t f gs); [exact G|exact F|lia]|]. intros a st (l & sp & ->).
      apply tw_bind. apply r_complete; [discriminate|]. intros c. apply tw_ret. exists [], (Some c), sp. auto.
    - eapply tw_mono; [apply (zw_root_lead t f gs' g); [exact G|exact F|lia|exact K]|]. intros a st (l & sp & ->).
      apply tw_bind. apply r_complete; [discriminate|]. intros c. apply tw_ret.
      exists [TTok (fst (fst g))], (Some c), sp. split; [reflexivity|]. unfold strip_forest. cbn. rewrite K. auto. }
  destruct (W _ R) as (n & u & s & st & E & R' & lead & l & sp & -> & H1 & H2).
  exists n, u, s, lead. split; [exact E|]. split; [|auto]. pose proof (q_lay _ _ _ R') as Q. cbn [s_stack s_kids] in Q.
  inversion Q; subst; assumption.
Qed.

Lemma unfinished_parse t f : unfinished t f -> ascii_strings t -> tlen t < u32_bound ->
  extent f <= 1996 ->
  exists g errs, parse_text t = Ok (g, errs) /\ strip g = [TNode SOURCE_FILE (flat_map unmarked f)] /\
    map se_msg errs = flat_map complaints f /\
    forall ws, token_stream t ws -> Forall2 (beside ws) (noted 0 f) (map (fun e => (se_msg e, se_pos e)) errs).
Proof.
  intros [G (ws & St & Fw & NC & NG) Rc] A Hs L. rewrite <- weight_parts in L.
  pose proof (stream_steps _ _ St A) as S.
  assert (HL : exists lx, lexer_new t = Ok lx).
  { unfold lexer_new. destruct ws as [|[k w] ws].
    - inversion S; subst. eexists. reflexivity.
    - apply steps_cons_inv in S as (b & -> & F & _). rewrite F. eexists. reflexivity. }
  destruct HL as [lx HL].
  assert (Sd : Forall (fun k => is_trivia k = false) (flat_map leaves f)).
  { pose proof (proper_solid ws) as P. clear -Fw P. induction Fw as [|k p ks ps H _ IH]; [constructor|].
    inversion P; subst. constructor; [eapply leaf_solid; eassumption|auto]. }
  destruct (grouping _ (stream_no_eof _ _ St)) as (lead & gs & E & T & Gk & Sol & M).
  assert (F : fit f gs []).
  { split; [|exact Rc]. unfold fits. rewrite <- M in Fw. clear -Fw. remember (flat_map leaves f) as ks. clear Heqks. revert gs Fw.
    induction ks as [|k ks IH]; intros [|g gs] H; inversion H; subst; constructor; auto. }
  assert (R : exists n u s lead, interp (run n) root (parser_new lx) = Ok (u, s) /\
    den (ps_events s) [TNode SOURCE_FILE (lead ++ f)] /\ strip_forest lead = [] /\ flat_map errs1 lead = []).
  { destruct lead as [|p lead].
    - cbn [app] in E. subst ws. apply (run_unfinished t f gs lx G HL S Gk).
      + destruct Sol; [constructor|assumption].
      + apply (group_layout gs []); assumption.
      + lia.
      + left. exact F.
    - inversion T as [|? ? T1 T2]; subst.
      assert (Ne : fst p <> EOF). { intros X. unfold trivia_piece in T1. rewrite X in T1. discriminate. }
      apply (run_unfinished t f ((p, lead) :: gs) lx G HL).
      + rewrite ungroup_cons. cbn [fst snd app]. exact S.
      + constructor; [split; assumption|exact Gk].
      + exact Sol.
      + apply (group_layout _ []); [constructor; [split; assumption|exact Gk]| |]; rewrite ungroup_cons; assumption.
      + lia.
      + right. exists (p, lead), gs. split; [reflexivity|]. split; [exact F|exact T1]. }
  destruct R as (n & u & s & ld & R & D & H1 & H2).
  pose proof (parse_ends t lx HL) as NF. unfold parse_text. rewrite HL. cbn [bind].
  unfold parse_with_lexer in *.
  pose proof (grammar_sound t lx (parse_fuel (lx_text lx)) HL) as GS.
  assert (RE : interp (run (parse_fuel (lx_text lx))) root (parser_new lx) = Ok (u, s)).
  { set (d := parse_fuel (lx_text lx)) in *. destruct (Nat.le_ge_cases n d) as [Le|Le].
    - exact (interp_le n d root _ _ Le R).
    - rewrite <- R. symmetry. apply interp_more; [intros f' s' X; apply run_more; auto|].
      intros X. rewrite X in NF. apply NF. reflexivity. }
  rewrite RE in *. cbn [bind] in *. destruct GS as (F' & gs' & P).
  destruct (build_ok _ _ _ _ _ Hs P) as (g & errs & B & O).
  pose proof (den_inj _ _ _ D (p_den _ _ _ _ _ P)) as X. injection X as <-.
  exists g, errs. rewrite B. destruct (ro_root _ _ _ _ _ O) as (cs & -> & Sc).
  pose proof (ro_msgs _ _ _ _ _ O) as Ms. rewrite flat_map_app, H2, errs_forest in Ms.
  split; [reflexivity|]. split; [|split; [exact Ms|]].
  2: { intros ws' St'. assert (W : ws' = ungroup gs').
    { eapply steps_same; [apply (stream_steps _ _ St' A)|apply (stream_no_eof _ _ St')|apply O|apply O]. }
    subst ws'. apply spots_beside. pose proof (lead_trivia _ H1 H2) as LT. rewrite <- (noted_lead ld f 0 LT).
    apply (ro_spots _ _ _ _ _ O). intros m I. apply in_app_or in I as [I|I].
    - rewrite Forall_forall in LT. destruct (LT _ I) as (k & X & _). discriminate X.
    - exact (file_nodes f G m I). }
  cbn [strip]. rewrite Sc. unfold strip_forest in *. rewrite flat_map_app, H1. cbn [app].
  f_equal. f_equal. exact (strips_unmarked f Sd).
Qed.
