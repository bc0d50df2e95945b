(** Rules and statements for unfinished programs: those of AcceptRules.v, for
    trees in which parts are missing. *)
From Coq Require Import String.
From Verif Require Import Base BaseProofs Kinds KindsProofs LexSpec TokenSet Lexer LexerProofs LexerStateProofs
  Parser Grammar TreeSpec ParserLogic SinkProofs ParseProofs ParserTotal SyntaxSpec LenientSpec AcceptRules AcceptProofs GapSpec.
Local Open Scope N_scope.

Section Text.
  Variable t : text.
  Notation tw := (tw t).

  Lemma r_error m gs l ks stk sp (Q : _ -> tst -> Prop) : Q tt (TS gs None (ks ++ [TErr m]) stk sp) ->
    tw (error m) (TS gs l ks stk sp) Q.
  Proof.
    intros H. unfold error, do_. apply tw_do. intros s R. cbn [exec]. eexists _, _, (TS gs None (ks ++ [TErr m]) stk sp).
    split; [reflexivity|]. split; [|apply tw_ret; exact H].
    destruct R. constructor; cbn [s_toks s_last s_kids s_stack s_spent push_event ps_events ps_lexer ps_steps] in *; auto.
    - apply lay_app; [assumption|]. repeat constructor.
    - exact I.
  Qed.

  Lemma r_abandon m before gs l ks stk sp (Q : _ -> tst -> Prop) : Q tt (TS gs None (before ++ ks) stk sp) ->
    tw (abandon m) (TS gs l ks (Open m None before :: stk) sp) Q.
  Proof.
    intros H. unfold abandon, do_. apply tw_do. intros s R. pose proof (q_lay _ _ _ R) as RL. cbn [s_stack s_kids] in RL.
    pose proof (lay_pos _ _ _ _ RL) as (fp & E & Ep). cbn [o_pos o_first] in *.
    assert (X : exists s', exec_abandon m s = Ok s' /\ trel t s' (TS gs None (before ++ ks) stk sp)).
    { inversion RL as [|evs0 ? f0 seg ? L D Ee|]; subst. destruct R. unfold exec_abandon.
      destruct (Nat.eqb (S (length evs0)) (length (ps_events s))) eqn:El.
      - rewrite E. eexists. split; [reflexivity|].
        assert (seg = []).
        { apply Nat.eqb_eq in El. rewrite <- Ee in El. rewrite app_length in El. cbn [length] in El.
          destruct seg; [reflexivity|cbn in El; lia]. }
        subst seg. constructor; cbn [s_toks s_last s_kids s_stack s_spent with_events ps_events ps_lexer ps_steps] in *; auto; [|exact I].
        rewrite <- Ee, removelast_last. inversion D as [Z| | | |n ? ? ? ? C Z Z1]; subst.
        + rewrite app_nil_r. exact L.
        + apply app_eq_nil in Z1 as [-> ->]. destruct (chain_at _ _ _ _ C) as [Z2 _]. cbn in Z2. lia.
      - eexists. split; [reflexivity|].
        constructor; cbn [s_toks s_last s_kids s_stack s_spent with_events ps_events ps_lexer ps_steps] in *; auto; [|exact I].
        rewrite <- Ee. apply lay_app; [exact L|]. apply den_tomb. exact D. }
    destruct X as (s' & X1 & X2). cbn [exec]. rewrite X1. cbn [bind]. eexists _, _, _. split; [reflexivity|].
    split; [exact X2|]. apply tw_ret. exact H.
  Qed.

  Lemma r_expect_no k gs l ks stk sp (Q : _ -> tst -> Prop) : sp <= 10000 -> kind_eqb (gcur gs) k = false ->
    Q false (TS gs None (ks ++ [TErr (`"expected " ++ kind_name k)]) stk (sp + 1)) -> tw (expect k) (TS gs l ks stk sp) Q.
  Proof.
    intros L E H. apply tw_bind. apply r_eat_no; [exact L|exact E|]. apply tw_bind. apply r_error. apply tw_ret. exact H.
  Qed.

  (** a missing part *)
  Lemma r_recover m rec gs l ks stk sp (Q : _ -> tst -> Prop) :
    (gcur gs = L_BRACE \/ gcur gs = R_BRACE \/ ts_has rec (gcur gs) = true) ->
    Q tt (TS gs None (ks ++ [TErr m]) stk sp) -> tw (err_recover m rec) (TS gs l ks stk sp) Q.
  Proof.
    intros C H. unfold err_recover. apply tw_bind. apply r_current.
    destruct (kind_eqb (gcur gs) L_BRACE || kind_eqb (gcur gs) R_BRACE) eqn:E.
    - apply r_error. exact H.
    - apply tw_bind. apply r_at_ts. destruct C as [C|[C|C]]; [rewrite C in E; discriminate|rewrite C in E; discriminate|].
      rewrite C. apply r_error. exact H.
  Qed.
  (** a token in its place *)
  Lemma r_instead m rec g gs l ks stk sp (Q : _ -> tst -> Prop) :
    fst (fst g) <> L_BRACE -> fst (fst g) <> R_BRACE -> fst (fst g) <> EOF -> ts_has rec (fst (fst g)) = false ->
    (forall l', Q tt (TS gs l' (ks ++ [instead m (fst (fst g))]) stk sp)) -> tw (err_recover m rec) (TS (g :: gs) l ks stk sp) Q.
  Proof.
    intros N1 N2 N3 C H. unfold err_recover. apply tw_bind. apply r_current. cbn [gcur].
    apply kind_eqb_neq in N1, N2. rewrite N1, N2. cbn [orb]. apply tw_bind. apply r_at_ts. cbn [gcur]. rewrite C.
    apply tw_bind. apply r_start. intros n. apply tw_bind. apply r_error. apply tw_bind. apply r_bump_any; [exact N3|].
    apply tw_bind. apply r_complete; [discriminate|]. intros c. apply tw_ret. apply H.
  Qed.

  (** tokens up to a known one *)
  Lemma r_skip ts js : forall gs rest l ks stk sp (Q : _ -> tst -> Prop),
    Forall2 (fun k (g : group) => fst (fst g) = k) js gs -> Forall (fun k => ts_has ts k = false /\ k <> EOF) js -> ts_has ts (gcur rest) = true ->
    (forall l', Q tt (TS rest l' (ks ++ map TTok js) stk sp)) ->
    tw (call (F_skip_until ts)) (TS (gs ++ rest) l ks stk sp) Q.
  Proof.
    induction js as [|k js IH]; intros gs rest l ks stk sp Q F J E H; inversion F; subst; clear F.
    - cbn [app map]. apply (tw_call t (F_skip_until ts)). cbn [body]. unfold skip_until_body. apply tw_bind. apply r_current.
      rewrite E. apply tw_ret. rewrite <- (app_nil_r ks). apply H.
    - inversion J as [|? ? [J1 J2] J3]; subst. apply (tw_call t (F_skip_until ts)). cbn [body app]. unfold skip_until_body.
      apply tw_bind. apply r_current. cbn [gcur]. rewrite J1. apply tw_bind. apply r_bump_any; [exact J2|].
      apply IH; [assumption|exact J3|exact E|]. intros lx. rewrite <- app_assoc. apply H.
  Qed.
  Lemma r_skipped m ts js gs rest l ks stk sp (Q : _ -> tst -> Prop) :
    Forall2 (fun k (g : group) => fst (fst g) = k) js gs -> Forall (fun k => ts_has (ts ++ [EOF]) k = false) js ->
    ts_has (ts ++ [EOF]) (gcur rest) = true ->
    (forall c, Q c (TS rest (Some c) (ks ++ [skipped m js]) stk sp)) ->
    tw (error_and_skip_until m ts) (TS (gs ++ rest) l ks stk sp) Q.
  Proof.
    intros F J E H. unfold error_and_skip_until. apply tw_bind. apply r_start. intros n. apply tw_bind. apply r_error.
    apply tw_bind. eapply r_skip; [exact F| |exact E|].
    - eapply Forall_impl; [|exact J]. intros k Hk. split; [exact Hk|]. intros ->. rewrite ts_has_spec in Hk.
      unfold kind_in in Hk. rewrite existsb_app in Hk. cbn in Hk. rewrite orb_true_r in Hk. discriminate.
    - intros l'. apply r_complete; [discriminate|]. intros c. cbn [opt_tree app]. apply H.
  Qed.

  (** looking one token ahead *)
  Lemma r_nth1_any g gs l ks stk sp (Q : _ -> tst -> Prop) : sp <= 10000 ->
    (forall x, x = COMMENT \/ x = gcur gs -> Q x (TS (g :: gs) l ks stk (sp + 1))) ->
    tw (nth_ 1) (TS (g :: gs) l ks stk sp) Q.
  Proof.
    intros H HK. unfold nth_, do_. apply tw_do. intros s R.
    destruct (trel_group _ _ _ _ _ R eq_refl) as (ws & b & mid & I & S1 & S2 & Ft & _ & D & _).
    destruct (steps_head _ _ S2) as [n F].
    destruct (trim_steps _ _ _ S1 Ft _ _ F (solid_cur _ D)) as (k1 & n1 & F1 & K).
    assert (L : lx_lookahead_nth (ps_lexer s) 1 = Ok (token_new k1 n1)).
    { cbn [lx_lookahead_nth]. unfold lx_lookahead. rewrite (inv_slice_ok _ _ _ _ _ _ I). cbn [bind].
      rewrite F1. reflexivity. }
    eexists _, _, (tick _). split; [apply (nth_ok t 1 s _ _ ltac:(lia) R H L)|].
    split; [apply trel_tick; exact R|]. rewrite kind_trunc. apply tw_ret. apply HK.
    destruct K as [[_ K]|K]; auto.
  Qed.
End Text.

(** ** The tokens of an unfinished forest *)
Fixpoint weight1 (x : tree) : N :=
  match x with
  | TNode k cs => N.of_nat (unseparated k cs) + fold_right (fun y n => weight1 y + n) 0 cs
  | TTok _ | TErr _ => 1
  end.
Definition weight (f : list tree) : N := fold_right (fun y n => weight1 y + n) 0 f.
Lemma weight_app f g : weight (f ++ g) = weight f + weight g.
Proof. unfold weight. induction f as [|x f IH]; cbn [app fold_right]; lia. Qed.
Lemma weight_cons x f : weight (x :: f) = weight1 x + weight f.
Proof. reflexivity. Qed.
Lemma weight_node k f : weight1 (TNode k f) = N.of_nat (unseparated k f) + weight f.
Proof. reflexivity. Qed.
Lemma weight_toks ks : weight (map TTok ks) = N.of_nat (length ks).
Proof. induction ks as [|k ks IH]; [reflexivity|]. cbn [map length]. rewrite weight_cons, IH. cbn [weight1]. lia. Qed.

(** the groups [gs] are the tokens of [f], and parsing goes on behind each
    missing part when [rest] follows *)
Definition fit (f : list tree) (gs rest : list group) : Prop :=
  fits f gs /\ recovers (flat_map row f) (gcur rest).

Lemma token_kind_stands k g : stands_for k g -> fst g = token_kind k.
Proof. destruct k; cbn; auto. intros [H _]. exact H. Qed.

Fixpoint toks (r : list (kind + text)) : list kind :=
  match r with [] => [] | inl k :: r => k :: toks r | inr _ :: r => toks r end.
Lemma toks_app a b : toks (a ++ b) = toks a ++ toks b.
Proof. induction a as [|[k|m] a IH]; cbn [app toks]; [reflexivity|rewrite IH; reflexivity|exact IH]. Qed.
Lemma row_error m cs : row (TNode ERROR (TErr m :: cs)) = flat_map row cs ++ (if skips m then [inr m] else []).
Proof. reflexivity. Qed.
Lemma toks_row x : toks (row x) = map token_kind (leaves x).
Proof.
  induction x as [k cs IH|k|m] using tree_ind2; [|reflexivity|reflexivity].
  assert (X : toks (flat_map row cs) = map token_kind (flat_map leaves cs)).
  { induction IH as [|x cs H _ IHc]; [reflexivity|]. cbn [flat_map]. rewrite toks_app, map_app, H, IHc. reflexivity. }
  destruct k; try exact X. destruct cs as [|[k cs'|k|m] cs]; try exact X.
  rewrite row_error, toks_app. cbn [leaves flat_map row toks app] in *. rewrite X.
  destruct (skips m); cbn [toks]; apply app_nil_r.
Qed.
Lemma toks_rows f : toks (flat_map row f) = map token_kind (flat_map leaves f).
Proof. induction f as [|x f IH]; [reflexivity|]. cbn [flat_map]. rewrite toks_app, map_app, toks_row, IH. reflexivity. Qed.
Lemma next_toks r k : next r k = match toks r with [] => k | k' :: _ => k' end.
Proof. induction r as [|[k'|m] r IH]; cbn [next toks]; auto. Qed.
Lemma next_fits f gs rest : fits f gs -> next (flat_map row f) (gcur rest) = gcur (gs ++ rest).
Proof.
  intros F. rewrite next_toks, toks_rows. unfold fits in F. destruct F as [|k g ks gs S F]; [reflexivity|].
  cbn [map app gcur]. symmetry. apply token_kind_stands. exact S.
Qed.
Lemma recovers_app a b k : recovers (a ++ b) k <-> recovers a (next b k) /\ recovers b k.
Proof.
  induction a as [|[k'|m] a IH]; cbn [app recovers]; [tauto|exact IH|].
  assert (E : next (a ++ b) k = next a (next b k)).
  { clear IH. induction a as [|[k'|m'] a IH]; cbn [app next]; auto. }
  rewrite E. tauto.
Qed.

Lemma fit_nil rest : fit [] [] rest.
Proof. split; [constructor|exact I]. Qed.
Lemma fit_nil_inv gs rest : fit [] gs rest -> gs = [].
Proof. intros [F _]. inversion F. reflexivity. Qed.
Lemma fit_app f g gs rest : fit (f ++ g) gs rest -> exists g1 g2, fit f g1 (g2 ++ rest) /\ fit g g2 rest /\ gs = g1 ++ g2.
Proof.
  intros [F R]. unfold fits in F. rewrite flat_map_app in F. apply Forall2_app_inv_l in F as (g1 & g2 & F1 & F2 & ->).
  rewrite flat_map_app in R. apply recovers_app in R as [R1 R2]. exists g1, g2. split; [|split; [split; assumption|reflexivity]].
  split; [exact F1|]. rewrite <- (next_fits g g2 rest F2). exact R1.
Qed.
Lemma fit_cons x f gs rest : fit (x :: f) gs rest -> exists g1 g2, fit [x] g1 (g2 ++ rest) /\ fit f g2 rest /\ gs = g1 ++ g2.
Proof. apply (fit_app [x] f). Qed.
Lemma fit_tok k f gs rest : fit (TTok k :: f) gs rest -> exists g gs', stands_for k (fst g) /\ fit f gs' rest /\ gs = g :: gs'.
Proof.
  intros [F R]. inversion F as [|? g ? gs' S F']; subst. exists g, gs'. split; [exact S|]. split; [|reflexivity].
  split; [exact F'|exact R].
Qed.
Lemma fit_err m f gs rest : fit (TErr m :: f) gs rest -> goes_on m (gcur (gs ++ rest)) /\ fit f gs rest.
Proof.
  intros [F R]. cbn [flat_map row app recovers] in R. destruct R as [R1 R2].
  assert (F' : fits f gs) by exact F. rewrite (next_fits f gs rest F') in R1. split; [exact R1|]. split; assumption.
Qed.
Lemma fit_one k cs gs rest : k <> ERROR -> fit [TNode k cs] gs rest -> fit cs gs rest.
Proof.
  intros N [F R]. unfold fits in *. cbn [flat_map leaves] in F. rewrite app_nil_r in F. split; [exact F|].
  cbn [flat_map] in R. rewrite app_nil_r in R. destruct k; try exact R. contradiction.
Qed.
Lemma fit_node k cs f gs rest : k <> ERROR -> fit (TNode k cs :: f) gs rest ->
  exists g1 g2, fit cs g1 (g2 ++ rest) /\ fit f g2 rest /\ gs = g1 ++ g2.
Proof. intros N H. apply fit_cons in H as (g1 & g2 & H1 & H2 & ->). apply fit_one in H1; [|exact N]. eauto 6. Qed.
Lemma fit_instead m k f gs rest : k <> DIEM_ADDRESS -> fit (instead m k :: f) gs rest ->
  exists g gs', fst (fst g) = k /\ fit f gs' rest /\ gs = g :: gs'.
Proof.
  intros N H. apply fit_cons in H as (g1 & g2 & [F _] & H2 & ->). inversion F as [|? g ? gs' S F']; subst.
  inversion F'; subst. exists g, g2. split; [destruct k; try exact S; contradiction|]. auto.
Qed.
Lemma fit_skipped m js f gs rest : skips m = true -> Forall (fun k => k <> DIEM_ADDRESS) js -> fit (skipped m js :: f) gs rest ->
  exists g1 g2, Forall2 (fun k (g : group) => fst (fst g) = k) js g1 /\ goes_on m (gcur (g2 ++ rest)) /\ fit f g2 rest /\ gs = g1 ++ g2.
Proof.
  intros E N H. apply fit_cons in H as (g1 & g2 & [F R] & H2 & ->). exists g1, g2. split.
  - unfold fits in F. cbn [flat_map leaves app skipped] in F. rewrite app_nil_r in F. clear -F N. revert g1 F.
    induction js as [|k js IH]; intros g1 F; inversion F as [|? g ? gs' S F']; subst; [constructor|].
    inversion N; subst. constructor; [|apply IH; assumption]. destruct k; try exact S. contradiction.
  - split; [|auto]. unfold skipped in R; cbn [flat_map] in R; rewrite app_nil_r, row_error, E in R. apply recovers_app in R as [_ [R _]]. exact R.
Qed.

(** ** Statements *)
Section Statements.
  Variable t : text.
  Notation tw := (tw t).

  (** [z_prog p ok slack a b f]: [p] reads [f], if the token behind it is [ok] *)
  Definition z_prog {A} (p : prog A) (ok : kind -> Prop) (slack a b : N) (f : list tree) : Prop :=
    forall gs rest l kids stk sp, fit f gs rest -> ok (gcur rest) -> sp + 5 * weight f + slack <= 10000 ->
      tw p (TS (gs ++ rest) l kids stk sp) (fin rest kids f stk a (sp + 5 * weight f + b)).
  (** the same, in a marker that was opened before *)
  Definition z_open {A} (p : nat -> prog A) (ok : kind -> Prop) (slack a b : N) (f : list tree) : Prop :=
    forall gs rest l kids stk sp m, fit f gs rest -> ok (gcur rest) -> sp + 5 * weight f + slack <= 10000 ->
      tw (p m) (TS (gs ++ rest) l [] (Open m None kids :: stk) sp) (fin rest kids f stk a (sp + 5 * weight f + b)).

  Definition closes (k : kind) : Prop := k = R_BRACE \/ k = EOF.

  Definition z_module : list tree -> Prop := z_prog module any 10 3 0.
  Definition z_modules : list tree -> Prop := z_prog (call F_address_items) closes 13 0 2.
  Definition z_items : list tree -> Prop := z_prog (call F_items) closes 13 0 2.
  Definition z_item : list tree -> Prop := z_prog item (off [SEMICOLON]) 11 3 0.
  Definition z_opt_item : list tree -> Prop := z_open opt_item any 10 4 0.
  Definition z_field : list tree -> Prop := z_prog record_field (off [COLON_COLON]) 10 5 0.
  Definition z_fields : list tree -> Prop := z_prog (call F_record_fields) (eq R_BRACE) 13 0 3.
  Definition z_type : list tree -> Prop := z_prog (call F_type) (off [COLON_COLON]) 10 0 0.
  Definition z_type_param : list tree -> Prop := z_prog generic_param (off [COLON; PLUS; IDENT]) 10 0 0.
  Definition z_type_params : list tree -> Prop := z_prog (call F_generic_params) (eq GT) 13 0 5.
  Definition z_bounds : list tree -> Prop := z_prog (call F_bounds) (off [PLUS; IDENT]) 10 0 0.
  Definition z_param : list tree -> Prop := z_open param (off [COLON_COLON]) 10 5 0.
  Definition z_params : list tree -> Prop := z_prog (call F_params) (eq R_PAREN) 13 0 3.
  Definition z_pattern (f : list tree) : Prop :=
    z_prog (call F_pattern) (fun k => f = [TNode IDENT_PAT [name_node]] -> off [L_BRACE] k) 10 0 0 f.
  Definition z_field_pat : list tree -> Prop := z_prog record_pat_field (off [L_BRACE; COLON]) 10 0 0.
  Definition z_field_pats : list tree -> Prop := z_prog (call F_record_pat_fields) (eq R_BRACE) 15 0 5.
  Definition z_stmts (f : list tree) : Prop :=
    z_prog (call F_block_contents) closes (5 * N.of_nat (joints f) + 14) 0 (5 * N.of_nat (joints f) + 6) f.
  Definition z_args : list tree -> Prop := z_prog (call F_args) (eq R_PAREN) 13 0 4.
  Definition z_inits : list tree -> Prop := z_prog (call F_record_expr_fields) (eq R_BRACE) 15 0 6.
  Definition z_file : list tree -> Prop := z_prog (call F_root) (eq EOF) 15 0 1.

  Definition z_block (f : list tree) : Prop :=
    forall gs rest l kids stk sp, fit f gs rest -> sp + 5 * weight f + 10 <= 10000 ->
      tw block_expr_unchecked (TS (gs ++ rest) l kids stk sp) (finc rest kids f stk 1 (sp + 5 * weight f)).
  (** a path does not go on, nor the fields of a record follow it *)
  Definition no_fields (f : list tree) (k : kind) : Prop :=
    off [COLON_COLON] k /\ ((exists e, f = [e] /\ last_path e = true) -> off [L_BRACE] k).
  Definition z_atom (f : list tree) : Prop :=
    forall gs rest l kids stk sp, fit f gs rest -> no_fields f (gcur rest) -> sp + 5 * weight f + 10 <= 10000 ->
      tw atom_expr (TS (gs ++ rest) l kids stk sp) (fino rest kids f stk 0 (sp + 5 * weight f)).
  (** a path may go on *)
  Definition z_path (f : list tree) : Prop :=
    forall gs rest l kids stk sp (Q : _ -> tst -> Prop), fit f gs rest -> sp + 5 * weight f + 10 <= 10000 ->
      (forall c sp', sp' + 2 <= sp + 5 * weight f ->
         tw (call (F_path_for_qualifier c)) (TS rest (Some c) (kids ++ f) stk sp') Q) ->
      tw path (TS (gs ++ rest) l kids stk sp) Q.
  (** calls and field accesses may follow *)
  Definition z_postfix (f : list tree) : Prop :=
    forall gs rest l kids stk sp (Q : _ -> tst -> Prop), fit f gs rest -> no_fields f (gcur rest) -> sp + 5 * weight f + 10 <= 10000 ->
      (forall c sp', sp' <= sp + 5 * weight f -> tw (call (F_postfix c)) (TS rest (Some c) (kids ++ f) stk sp') Q) ->
      tw atom_expr (TS (gs ++ rest) l kids stk sp)
        (fun a st => match a with Some c => tw (call (F_postfix c)) st Q | None => False end).
  (** an operator may follow *)
  Definition z_operand (bp : N) (ok : kind -> Prop) (f : list tree) : Prop :=
    forall gs rest l kids stk sp (Q : _ -> tst -> Prop), fit f gs rest -> off [L_PAREN; DOT] (gcur rest) ->
      no_fields f (gcur rest) -> ok (gcur rest) ->
      sp + 5 * weight f + 10 <= 10000 ->
      (forall c sp', sp' <= sp + 5 * weight f -> tw (call (F_expr_bp_loop bp c)) (TS rest (Some c) (kids ++ f) stk sp') Q) ->
      tw (call (F_expr_bp bp)) (TS (gs ++ rest) l kids stk sp) Q.
  Definition z_unary (f : list tree) : Prop := forall bp, z_operand bp any f.
  Definition z_expr (p : N) (f : list tree) : Prop := forall bp, 1 <= bp -> bp <= p -> z_operand bp (weak p) f.
  (** the loop over the patterns of a tuple says what it has seen *)
  Definition z_patterns (f : list tree) : Prop :=
    forall gs rest l kids stk sp c p, fit f gs rest -> gcur rest = R_PAREN -> sp + 5 * weight f + 14 <= 10000 ->
      tw (call (F_tuple_pat c p false)) (TS (gs ++ rest) l kids stk sp)
        (fun a st => a = (c || Nat.ltb 1 (length f), p || Nat.ltb 0 (length f), false) /\
                     fin rest kids f stk 0 (sp + 5 * weight f + 6) a st).

  (** between parentheses *)
  Definition z_parens (f : list tree) : Prop :=
    forall gs rest l kids stk sp, fit f gs rest -> gcur rest = R_PAREN ->
      sp + 5 * weight f + 2 * N.of_nat (length f) + 11 <= 10000 ->
      tw (call F_paren) (TS (gs ++ rest) l kids stk sp)
        (fun a st => a = true /\ fin rest kids f stk 0 (sp + 5 * weight f + 2 * N.of_nat (length f) + 2) a st).

  Definition z_commas (x : nt) : list tree -> Prop :=
    match x with
    | Field => z_fields
    | TypeParam => z_type_params
    | Param => z_params
    | Pattern_ => z_patterns
    | FieldPat => z_field_pats
    | Expr p => fun f => p = 1 -> z_args f
    | FieldInit => z_inits
    | _ => fun _ => True
    end.

  (** the parts that have no function of their own *)
  Definition z_close (f : list tree) : Prop := f = [TTok R_BRACE] \/ f = [TErr m_close].
  Definition z_module_body (f : list tree) : Prop :=
    f = [TTok SEMICOLON] \/ f = [TErr m_body] \/
    exists is c, f = [TNode ITEM_LIST (TTok L_BRACE :: is ++ c)] /\ z_items is /\ z_close c.
  Definition z_address_name (f : list tree) : Prop := f = [TTok DIEM_ADDRESS] \/ f = [TTok IDENT].
  Definition z_address_of (f : list tree) : Prop :=
    z_address_name f \/ exists js, f = [skipped m_address js] /\ junk [IDENT; INTEGER_NUMBER] m_address js.
  Definition z_modules_of (f : list tree) : Prop :=
    f = [TErr m_modules] \/
    exists ms c, f = [TNode ADDRESS_ITEM_LIST (TTok L_BRACE :: ms ++ c)] /\ z_modules ms /\ z_close c.
  Definition z_name : list tree -> Prop := z_prog (name_r ITEM_RECOVERY_SET) any 2 3 0.
  Definition z_params_of (f : list tree) : Prop :=
    f = [TErr m_params] \/ exists ps, f = [TNode PARAM_LIST (TTok L_PAREN :: ps ++ [TTok R_PAREN])] /\ z_params ps.
  Definition z_body_of (f : list tree) : Prop :=
    f = [TErr m_block] \/ exists b, f = [b] /\ starts [L_BRACE] [b] /\ z_block [b].
  Definition z_type_of (f : list tree) : Prop :=
    z_type f /\ forall gs rest, fit f gs rest -> off [MUT_KW] (gcur (gs ++ rest)).
  Definition z_struct_body (f : list tree) : Prop :=
    f = [TTok SEMICOLON] \/ f = [TErr m_body] \/ exists fs, f = [TNode RECORD_FIELD_LIST (TTok L_BRACE :: fs ++ [TTok R_BRACE])] /\ z_fields fs.
  Definition z_generics (f : list tree) : Prop :=
    f = [] \/ exists ps, f = [TNode GENERIC_PARAM_LIST (TTok LT :: ps ++ [TTok GT])] /\ z_type_params ps.
  Definition z_ret (f : list tree) : Prop :=
    f = [] \/ exists ty, f = [TNode RET_TYPE [TTok COLON; ty]] /\ z_type [ty].
  Definition z_annot (f : list tree) : Prop := f = [] \/ exists ty, f = [TTok COLON; ty] /\ z_type [ty].
  Definition z_init (f : list tree) : Prop := f = [] \/ exists e, f = [TTok EQ; e] /\ z_expr 1 [e].
  Definition z_let (f : list tree) : Prop :=
    exists p a i, f = TTok LET_KW :: p :: a ++ i /\ z_pattern [p] /\ z_annot a /\ z_init i.
  Definition z_field_init (f : list tree) : Prop :=
    (exists e, f = [TNode RECORD_EXPR_FIELD [e]] /\ z_expr 1 [e] /\ begins [IDENT; INTEGER_NUMBER] e /\
       forall k k' r, leaves e = k :: k' :: r -> k' <> COLON) \/
    exists e, f = [TNode RECORD_EXPR_FIELD [name_ref_node; TTok COLON; e]] /\ z_expr 1 [e].
  (** one round of the loop over the file *)
  Definition z_top (f : list tree) : Prop :=
    forall gs rest l kids stk sp (Q : _ -> tst -> Prop), fit f gs rest -> sp + 5 * weight f + 14 <= 10000 ->
      (forall l' sp', sp' <= sp + 5 * weight f -> tw (call F_root) (TS rest l' (kids ++ f) stk sp') Q) ->
      tw (call F_root) (TS (gs ++ rest) l kids stk sp) Q.

  Definition zstm (x : nt) : list tree -> Prop :=
    match x with
    | File => z_file
    | TopItem => z_top
    | Modules => z_modules
    | Module => z_module
    | ModuleBody => z_module_body
    | AddressName => z_address_name
    | Items => z_items
    | Item | Struct | Function => z_opt_item
    | StructBody => z_struct_body
    | Field => z_field
    | Generics => z_generics
    | TypeParam => z_type_param
    | Bounds => z_bounds
    | Param => z_param
    | RetType => z_ret
    | Type_ => z_type
    | Path_ => z_path
    | Block => z_block
    | Stmts => z_stmts
    | Let_ => z_let
    | TypeAnnot => z_annot
    | Init => z_init
    | Pattern_ => z_pattern
    | FieldPat => z_field_pat
    | Expr p => z_expr p
    | Unary => z_unary
    | Postfix => z_postfix
    | Atom => z_atom
    | FieldInit => z_field_init
    | Commas x => z_commas x
    end.
  Definition pstm (x : place) : list tree -> Prop :=
    match x with
    | Core x => zstm x
    | NameOf => z_name
    | ParamsOf => z_params_of
    | BodyOf => z_body_of
    | AddressOf => z_address_of
    | ModulesOf => z_modules_of
    | TypeOf => z_type_of
    | PatternOf => z_pattern
    | Parens => z_parens
    | Close => z_close
    end.
End Statements.
