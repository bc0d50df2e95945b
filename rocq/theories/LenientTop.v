(** Whole files that are parsed without an error message. *)
From Coq Require Import String.
From Verif Require Import Base BaseProofs Kinds KindsProofs LexSpec TokenSet Lexer LexerRuns LexerProofs LexerStateProofs
  Parser Grammar Sink TreeSpec GreenSpec ParserLogic GrammarProofs ProcessProofs SinkProofs TermProofs ParseProofs
  SyntaxSpec AcceptTop LenientSpec LenientLogic LenientProofs.
Local Open Scope N_scope.

(** ** Error events become error messages *)
Definition msgs (f : forest) : list text := flat_map errs1 f.
Lemma msgs_app f g : msgs (f ++ g) = msgs f ++ msgs g.
Proof. apply flat_map_app. Qed.
Lemma app_nonnil {A} (a b : list A) : a <> [] \/ b <> [] -> a ++ b <> [].
Proof. intros H E. apply app_eq_nil in E as [-> ->]. destruct H; congruence. Qed.

Lemma den_errs evs f : den evs f -> has_err evs -> msgs f <> [].
Proof.
  apply (den_mut (fun evs f => has_err evs -> msgs f <> [])
    (fun i seg t _ => has_err seg \/ msgs (opt_tree i) <> [] -> errs1 t <> [])).
  - intros H. inversion H.
  - intros k s g _ IH H. inversion H as [? ? Z|? ? Z]; subst; [destruct Z|]. exact (IH Z).
  - intros m s g _ _ _. discriminate.
  - intros s g _ IH H. inversion H as [? ? Z|? ? Z]; subst; [destruct Z|]. exact (IH Z).
  - intros n t off s g _ IHc _ IHd H. apply has_err_app in H. cbn. apply app_nonnil. intuition.
  - intros i k s g _ _ IH H. cbn [errs1]. change (flat_map errs1 (opt_tree i ++ g)) with (msgs (opt_tree i ++ g)).
    rewrite msgs_app. apply app_nonnil. destruct H as [H|H]; [|auto]. right. apply IH.
    inversion H as [? ? Z|? ? Z]; subst; [destruct Z|]. apply has_err_app in Z as [Z|Z]; [exact Z|].
    inversion Z as [? ? Y|? ? Y]; subst; [destruct Y|inversion Y].
  - intros i k s g seg t off _ _ IH _ IHc H. apply IHc. cbn [opt_tree msgs flat_map errs1]. rewrite app_nil_r.
    change (flat_map errs1 (opt_tree i ++ g)) with (msgs (opt_tree i ++ g)). rewrite msgs_app.
    destruct H as [H|H]; [|right; apply app_nonnil; auto].
    inversion H as [? ? Z|? ? Z]; subst; [destruct Z|]. apply has_err_app in Z as [Z|Z]; [right; apply app_nonnil; auto|].
    inversion Z as [? ? Y|? ? Y]; subst; [destruct Y|]. auto.
Qed.

(** ** The trees hold no trivia and no errors *)
Lemma lenient_clean plain : forall x f, @accepts plain x f -> forallb clean f = true.
Proof.
  fix IH 3. intros x f H. destruct H.
  all: repeat match goal with H : accepts _ _ |- _ => apply IH in H end.
  all: try match goal with H : separate _ |- _ => clear H end.
  all: try match goal with H : Forall _ ?es |- _ =>
    assert (forallb clean es = true) by
      (induction H as [|e es He Hes IHes]; [reflexivity|]; apply IH in He; cbn [forallb] in *; rewrite andb_true_r in He;
       rewrite He, IHes; reflexivity); clear H end.
  all: cbn [forallb clean] in *; rewrite ?forallb_app in *; cbn [forallb clean] in *;
    rewrite ?andb_true_iff in *; repeat match goal with H : _ /\ _ |- _ => destruct H end;
    repeat split; try assumption; try reflexivity.
  all: rewrite ?forallb_app; cbn [forallb clean]; rewrite ?andb_true_iff in *; repeat split; try assumption; try reflexivity.
  all: try (destruct op; try discriminate; reflexivity).
  all: try match goal with H : In _ _ |- _ => cbn in H; intuition (subst; reflexivity) end.
  all: try match goal with H : opt_semi _ |- _ => destruct H as [-> | ->]; reflexivity end.
Qed.

(** ** The parser *)
Lemma filter_strip f : strip_forest (filter not_blank f) = strip_forest f.
Proof.
  unfold strip_forest. induction f as [|x f IH]; [reflexivity|]. cbn [filter flat_map].
  destruct (not_blank x) eqn:E; cbn [flat_map]; rewrite IH; [reflexivity|].
  destruct x as [|k|]; try discriminate E. cbn in *. destruct (is_trivia k); [reflexivity|discriminate E].
Qed.

Lemma run_root_lenient plain t lx fuel u s : (plain = true -> uncommented t) -> lexer_new t = Ok lx -> interp (run fuel) root (parser_new lx) = Ok (u, s) ->
  has_err (ps_events s) \/
  exists new, den (ps_events s) [TNode SOURCE_FILE new] /\ @accepts plain File (filter not_blank new).
Proof.
  intros HU HL E. destruct (lexer_new_inv _ _ HL) as (k & len & I).
  assert (R : lrel plain t (parser_new lx) (L k None None [] [])).
  { constructor; [|discriminate|exact HU]. constructor; cbn.
    - constructor. constructor.
    - exact Logic.I.
    - exists [], t, len. cbn. split; [exact I|]. split; [constructor|]. split; [constructor|].
      split; [congruence|constructor].
    - constructor. }
  assert (W : lwp plain root (fun _ st' => l_stack st' = [] /\ exists new, l_kids st' = [TNode SOURCE_FILE new] /\
      @accepts plain File (filter not_blank new)) (L k None None [] [])).
  { unfold root. apply lwp_bind, y_start. intros m. apply lwp_bind, y_root. intros a c' n' l' new Hn.
    apply lwp_bind, y_complete; [discriminate|intro; discriminate|]. intros r. cbn [lwp l_stack l_kids].
    split; [reflexivity|]. exists new. cbn. auto. }
  pose proof (linterp_sound plain t fuel (lrun_sound plain t (lbody_sound plain) fuel) _ _ _ _ _ R W) as O.
  rewrite E in O. cbn [loutcome] in O. destruct O as [O|(st & [[RL _ _ _] _ _] & H1 & new & H2 & H3)]; [left; exact O|right].
  exists new. split; [|exact H3]. cbn [to_ast a_stack a_kids] in RL. rewrite H1, H2 in RL. inversion RL; subst. assumption.
Qed.

Lemma lenient_parse plain t g : (plain = true -> uncommented t) -> tlen t < u32_bound -> parse_text t = Ok (g, []) ->
  exists f ws, @accepts plain File f /\ strip g = [TNode SOURCE_FILE f] /\ steps t ws [] /\ Forall2 shows (gleaves g) ws /\
    Forall (fun p => fst p <> EOF) ws.
Proof.
  intros HU Hs P. unfold parse_text in P. apply bind_ok in P as (lx & HL & P). unfold parse_with_lexer in P.
  pose proof (grammar_sound t lx (parse_fuel (lx_text lx)) HL) as G.
  destruct (interp (run (parse_fuel (lx_text lx))) root (parser_new lx)) as [[u s]|w|] eqn:E; cbn [bind] in P; try discriminate P.
  destruct G as (F & gs & Pd). destruct (build_ok _ _ _ _ _ Hs Pd) as (g' & errs & B & O).
  rewrite B in P. injection P as -> ->.
  pose proof (ro_msgs _ _ _ _ _ O) as M. cbn [map] in M.
  destruct (run_root_lenient _ _ _ _ _ _ HU HL E) as [X|(new & D & Lf)].
  - exfalso. apply (den_errs _ _ (p_den _ _ _ _ _ Pd) X). unfold msgs. cbn [flat_map errs1]. rewrite app_nil_r. auto.
  - pose proof (den_inj _ _ _ D (p_den _ _ _ _ _ Pd)) as Y. injection Y as ->.
    exists (filter not_blank F), (ungroup gs). split; [exact Lf|]. destruct (ro_root _ _ _ _ _ O) as (cs & -> & Sc).
    split; [|split; [exact (ro_steps _ _ _ _ _ O)|split; [exact (ro_leaves _ _ _ _ _ O)|exact (ro_noeof _ _ _ _ _ O)]]].
    cbn [strip]. rewrite Sc. rewrite <- filter_strip. destruct (clean_forest _ (lenient_clean _ _ _ Lf)) as [-> _]. reflexivity.
Qed.

(** ** The strict grammar is part of this one *)
Lemma gen_lenient plain x f : gen x f -> @accepts plain x f.
Proof.
  induction 1; try (constructor; assumption).
  - apply (n_stmts_expr e [TTok SEMICOLON] ss); [assumption|right; reflexivity|discriminate|assumption].
  - apply (n_stmts_expr e [] []); [assumption|left; reflexivity|discriminate|constructor].
  - apply n_stmts_let; [assumption|right; reflexivity|discriminate|assumption].
  - eapply n_expr_bin; eassumption.
  - apply n_literal. cbn in *. tauto.
  - apply (n_paren [e]); [constructor; [assumption|constructor]|split; [discriminate|exact I]].
  - apply (n_paren []); [constructor|exact I].
  - apply n_field_init_short.
    + apply n_expr_unary, n_unary_postfix, n_postfix_atom, n_path_expr, n_path_name.
    + exists IDENT, []. split; [reflexivity|left; reflexivity].
Qed.
