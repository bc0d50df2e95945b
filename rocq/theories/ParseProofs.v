(** [parse_text] as a whole. *)
From Verif Require Import Base BaseProofs Kinds KindsProofs LexSpec Lexer LexerRuns LexerProofs LexerStateProofs
  Parser Grammar Sink TreeSpec GreenSpec ParserLogic GrammarProofs ProcessProofs SinkProofs TermProofs.
Local Open Scope N_scope.

Definition gchildren_of (g : green) : list green := match g with GNode _ cs => cs | GTok _ _ => [] end.
Record result_ok (t : text) (g : green) (errs : list syntax_error) (f : forest) (ws : list (kind * text)) : Prop := {
  ro_root : exists cs, g = GNode SOURCE_FILE cs /\ flat_map strip cs = strip_forest f;
  ro_tree : Forall tree_ok f;
  ro_steps : steps t ws [];
  ro_noeof : Forall (fun p => fst p <> EOF) ws;
  ro_text : pieces ws = t;
  ro_leaves : Forall2 shows (gleaves g) ws;
  ro_msgs : map se_msg errs = flat_map errs1 f;
  ro_sorted : ascending 0 (map se_pos errs) (tlen t);
  ro_boundary : Forall (fun e => boundary ws (se_pos e)) errs;
  ro_tight : forall c, In c (gchildren_of g) -> all_tight c;
  ro_spots : (forall m, ~ In (TErr m) f) -> Forall2 (spot ws) errs (noted 0 f)
}.

Lemma ungroup_no_eof gs : Forall group_ok gs -> Forall (fun p => fst p <> EOF) (ungroup gs).
Proof.
  induction 1 as [|g gs [H1 H2] _ IH]; [constructor|]. cbn [ungroup flat_map]. constructor; [exact H2|].
  apply Forall_app. split; [|exact IH]. eapply Forall_impl; [|exact H1].
  intros [k w] H E. cbn in E. subst k. unfold trivia_piece in H. discriminate.
Qed.

Lemma build_ok t evs toks f gs : tlen t < u32_bound -> parsed t evs toks f gs ->
  exists g errs, (let! calls := process evs in let! s := sink_run t toks sink_new calls in sink_finish t toks s) = Ok (g, errs) /\
    result_ok t g errs f (ungroup gs).
Proof.
  intros Hs P.
  destruct (sink_parsed t (ungroup gs) (p_text _ _ _ _ _ P) Hs f gs eq_refl (p_groups _ _ _ _ _ P)
    (p_solid _ _ _ _ _ P) (p_leaves _ _ _ _ _ P) (p_first _ _ _ _ _ P))
    as (cs & errs & R & L & S & M & A & B & T & Sp).
  exists (GNode SOURCE_FILE cs), errs. split.
  - rewrite (process_den _ _ (p_den _ _ _ _ _ P)). cbn [bind]. rewrite (p_toks _ _ _ _ _ P). exact R.
  - constructor; auto; try apply P.
    + exists cs. auto.
    + apply ungroup_no_eof, P.
    + rewrite Forall_forall in T. exact T.
Qed.

Lemma parse_cases t : tlen t < u32_bound ->
  match parse_text t with
  | Ok (g, errs) => exists f ws, result_ok t g errs f ws
  | Panic w => soft w
  | Fuel => False
  end.
Proof.
  intros Hs. unfold parse_text. destruct (lexer_new t) as [lx|w|] eqn:HL; cbn [bind].
  - pose proof (grammar_sound t lx (parse_fuel (lx_text lx)) HL) as G. pose proof (parse_ends t lx HL) as E.
    unfold parse_with_lexer in *.
    destruct (interp (run (parse_fuel (lx_text lx))) root (parser_new lx)) as [[u s]|w|]; cbn [bind] in *; [|exact G|congruence].
    destruct G as (f & gs & P). destruct (build_ok _ _ _ _ _ Hs P) as (g & errs & R & O).
    rewrite R. eauto.
  - unfold lexer_new in HL. apply bind_panic in HL as [HL|([k l] & _ & HL)]; [|discriminate].
    apply find_token_soft in HL. unfold soft. auto.
  - unfold lexer_new in HL. destruct (find_token t) as [[? ?]| |] eqn:F; try discriminate.
    exact (find_token_no_fuel _ F).
Qed.

(** ** Trees without trivia keep their shape *)
Lemma strip_tree_node k cs : strip_tree (TNode k cs) = [TNode k (strip_forest cs)].
Proof. reflexivity. Qed.

Definition strip1 (t : tree) : tree := match strip_tree t with [x] => x | _ => t end.

Lemma binds_strip n x : tree_ok x -> binds n x -> exists y, strip_tree x = [y] /\ binds n y.
Proof.
  destruct x as [k cs|k|m]; cbn [binds]; intros O B; try contradiction.
  exists (TNode k (strip_forest cs)). split; [reflexivity|].
  destruct (kind_eqb k BIN_EXPR) eqn:E.
  - apply kind_eqb_eq in E. subst k. destruct O as (_ & O & _). destruct (O eq_refl) as (l & op & r & p & -> & Hp & Bl & Br).
    destruct B as (p' & Hp' & B).
    assert (E : exists y, strip_tree l = [y]).
    { destruct l; cbn in Bl; try contradiction. eexists. reflexivity. }
    destruct E as [yl El].
    assert (E : exists y, strip_tree r = [y]).
    { destruct r; cbn in Br; try contradiction. eexists. reflexivity. }
    destruct E as [yr Er].
    unfold strip_forest. cbn [flat_map strip_tree]. rewrite El, Er.
    assert (T : is_trivia op = false) by (destruct op; try reflexivity; discriminate). rewrite T.
    cbn. exists p'. auto.
  - destruct k; try exact I. discriminate.
Qed.

Lemma strip_ok x : tree_ok x -> Forall tree_ok (strip_tree x).
Proof.
  induction x as [k cs IH|k|m] using tree_ind2; intros O.
  - rewrite strip_tree_node. constructor; [|constructor].
    destruct O as (O1 & O2 & O3). apply all_forest in O3.
    split; [exact O1|]. split.
    + intros ->. destruct (O2 eq_refl) as (l & op & r & p & -> & Hp & Bl & Br).
      inversion O3 as [|x1 y1 Ol O3']; subst. inversion O3' as [|x2 y2 _ O3'']; subst. inversion O3'' as [|x3 y3 Or _]; subst.
      destruct (binds_strip _ _ Ol Bl) as (yl & El & Bl').
      destruct (binds_strip _ _ Or Br) as (yr & Er & Br').
      exists yl, op, yr, p. unfold strip_forest. cbn [flat_map strip_tree]. rewrite El, Er.
      assert (T : is_trivia op = false) by (destruct op; try reflexivity; discriminate). rewrite T.
      split; [reflexivity|]. auto.
    + apply all_forest. unfold strip_forest. apply Forall_forall. intros y Hy.
      apply in_flat_map in Hy as (x & Hx & Hy).
      rewrite Forall_forall in IH, O3. specialize (IH x Hx (O3 x Hx)). rewrite Forall_forall in IH. auto.
  - cbn. destruct (is_trivia k); repeat constructor.
  - constructor.
Qed.

Lemma inside_strip x g : inside x g -> Forall tree_ok (strip g) -> Forall tree_ok (strip x).
Proof.
  induction 1 as [|k cs c Hin _ IH]; [auto|]. intros F. apply IH. cbn [strip] in F.
  inversion F as [|a b O' _]; subst. destruct O' as (_ & _ & O). apply all_forest in O.
  apply Forall_forall. intros y Hy. rewrite Forall_forall in O. apply O. apply in_flat_map. eauto.
Qed.

Lemma result_strip t g errs f ws : result_ok t g errs f ws -> Forall tree_ok (strip g).
Proof.
  intros [(cs & -> & S) O _ _ _ _ _ _ _ _]. cbn [strip]. rewrite S.
  change [TNode SOURCE_FILE (strip_forest f)] with (strip_tree (TNode SOURCE_FILE f)).
  apply strip_ok. split; [discriminate|]. split; [intro; discriminate|]. apply all_forest. exact O.
Qed.

Lemma shows_texts a b : Forall2 shows a b -> map snd a = map snd b.
Proof. induction 1 as [|x y a b [H _] _ IH]; [reflexivity|]. cbn. rewrite H, IH. reflexivity. Qed.

(** ** Grouping is determined by the sequence *)
Lemma binds_seq_ops n x : grouped x -> binds n x ->
  Forall (fun i => match i with Operator k => exists p, prec k = Some p /\ n <= p | Operand _ => True end) (seq_of x).
Proof.
  revert n. induction x as [k cs IH|k|m] using tree_ind2; intros n G B; [|constructor; auto..].
  destruct (kind_eqb k BIN_EXPR) eqn:E.
  2: { destruct k; try discriminate; cbn; repeat constructor. }
  apply kind_eqb_eq in E. subst k.
  destruct cs as [|l [|[|op|] [|r [|]]]]; cbn [grouped binds] in *; try contradiction.
  destruct G as ((p & Hp & Bl & Br) & Gl & Gr). destruct B as (p' & Hp' & Hn).
  assert (p' = p) by congruence. subst p'.
  inversion IH as [|x1 y1 IHl IH1]; subst. inversion IH1 as [|x2 y2 _ IH2]; subst. inversion IH2 as [|x3 y3 IHr _]; subst.
  cbn [seq_of]. apply Forall_app. split.
  - eapply Forall_impl; [|apply (IHl p Gl Bl)]. intros [|q]; auto. intros (pp & H1 & H2). exists pp. split; [auto|lia].
  - constructor; [exists p; auto|].
    eapply Forall_impl; [|apply (IHr (p + 1) Gr Br)]. intros [|q]; auto. intros (pp & H1 & H2). exists pp. split; [auto|lia].
Qed.

Lemma grouped_cases x : grouped x ->
  (seq_of x = [Operand x]) \/
  (exists l op r p, x = TNode BIN_EXPR [l; TTok op; r] /\ prec op = Some p /\ binds p l /\ binds (p + 1) r /\
     grouped l /\ grouped r /\ seq_of x = seq_of l ++ Operator op :: seq_of r).
Proof.
  destruct x as [k cs|k|m]; try (left; reflexivity). intros G.
  destruct (kind_eqb k BIN_EXPR) eqn:E.
  2: { left. destruct k; try discriminate; reflexivity. }
  apply kind_eqb_eq in E. subst k. right.
  destruct cs as [|l [|[|op|] [|r [|]]]]; cbn [grouped] in *; try contradiction.
  destruct G as ((p & Hp & Bl & Br) & Gl & Gr).
  exists l, op, r, p. repeat (split; [auto|]). reflexivity.
Qed.

Lemma seq_nonempty x : seq_of x <> [].
Proof.
  destruct x as [k cs|k|m]; try discriminate.
  destruct (kind_eqb k BIN_EXPR) eqn:E.
  2: { destruct k; discriminate. }
  apply kind_eqb_eq in E. subst k. destruct cs as [|l [|[|op|] [|r [|]]]]; try discriminate.
  cbn [seq_of]. destruct (seq_of l); discriminate.
Qed.

Lemma app_split {A} (a b a' b' : list A) x x' : a ++ x :: b = a' ++ x' :: b' ->
  (a = a' /\ x = x' /\ b = b') \/
  (exists m, a' = a ++ x :: m /\ b = m ++ x' :: b') \/
  (exists m, a = a' ++ x' :: m /\ b' = m ++ x :: b).
Proof.
  revert a'. induction a as [|y a IH]; intros [|y' a'] H; cbn [app] in H; injection H as E H; subst.
  - auto.
  - right. left. exists a'. auto.
  - right. right. exists a. auto.
  - destruct (IH _ H) as [(-> & -> & ->)|[(m & -> & ->)|(m & -> & ->)]].
    + auto.
    + right. left. exists m. auto.
    + right. right. exists m. auto.
Qed.

Lemma grouped_unique n : forall x y, (length (seq_of x) <= n)%nat -> grouped x -> grouped y -> seq_of x = seq_of y -> x = y.
Proof.
  induction n as [|n IH]; intros x y Hn Gx Gy E.
  { destruct (seq_of x) eqn:S; [exfalso; exact (seq_nonempty _ S)|cbn in Hn; lia]. }
  destruct (grouped_cases x Gx) as [Ex|(l & op & r & p & -> & Hp & Bl & Br & Gl & Gr & Ex)];
  destruct (grouped_cases y Gy) as [Ey|(l' & op' & r' & p' & -> & Hp' & Bl' & Br' & Gl' & Gr' & Ey)].
  - congruence.
  - rewrite Ex, Ey in E. destruct (seq_of l') as [|i [|]] eqn:S; [exfalso; exact (seq_nonempty _ S)| |]; discriminate.
  - rewrite Ex, Ey in E. destruct (seq_of l) as [|i [|]] eqn:S; [exfalso; exact (seq_nonempty _ S)| |]; discriminate.
  - rewrite Ex in Hn. rewrite Ex, Ey in E. rewrite app_length in Hn. cbn [length] in Hn.
    pose proof (binds_seq_ops _ _ Gl Bl) as Ol. pose proof (binds_seq_ops _ _ Gr Br) as Or.
    pose proof (binds_seq_ops _ _ Gl' Bl') as Ol'. pose proof (binds_seq_ops _ _ Gr' Br') as Or'.
    apply app_split in E as [(E1 & E2 & E3)|[(m & E1 & E2)|(m & E1 & E2)]].
    + injection E2 as <-. rewrite (IH l l'), (IH r r'); auto; lia.
    + rewrite E1 in Ol'. rewrite E2 in Or. apply Forall_app in Ol' as [_ Ol']. apply Forall_app in Or as [_ Or].
      apply Forall_inv in Ol' as (q & H1 & H2). apply Forall_inv in Or as (q' & H3 & H4).
      exfalso. assert (q = p) by congruence. assert (q' = p') by congruence. lia.
    + rewrite E1 in Ol. rewrite E2 in Or'. apply Forall_app in Ol as [_ Ol]. apply Forall_app in Or' as [_ Or'].
      apply Forall_inv in Ol as (q & H1 & H2). apply Forall_inv in Or' as (q' & H3 & H4).
      exfalso. assert (q = p') by congruence. assert (q' = p) by congruence. lia.
Qed.

Lemma tree_ok_grouped x : tree_ok x -> grouped x.
Proof.
  induction x as [k cs IH|k|m] using tree_ind2; intros O; try exact I.
  destruct (kind_eqb k BIN_EXPR) eqn:E.
  2: { destruct k; try discriminate; exact I. }
  apply kind_eqb_eq in E. subst k. destruct O as (_ & O & A).
  destruct (O eq_refl) as (l & op & r & p & -> & Hp & Bl & Br). destruct A as (Al & _ & Ar & _).
  inversion IH as [|x1 y1 IHl IH1]; subst. inversion IH1 as [|x2 y2 _ IH2]; subst. inversion IH2 as [|x3 y3 IHr _]; subst.
  cbn [grouped]. eauto 10.
Qed.

(** ** Helpers of PropParser.v *)
Lemma inside_leaf k w g : inside (GTok k w) g -> In (k, w) (gleaves g).
Proof.
  induction 1 as [|k' cs c Hin _ IH]; [left; reflexivity|]. cbn [gleaves]. apply in_flat_map. eauto.
Qed.
Lemma Forall2_in_l {A B} (R : A -> B -> Prop) l m x : Forall2 R l m -> In x l -> exists y, In y m /\ R x y.
Proof.
  induction 1 as [|a b l m H _ IH]; intros Hin; [destruct Hin|]. destruct Hin as [->|Hin].
  - exists b. split; [left; reflexivity|exact H].
  - destruct (IH Hin) as (y & H1 & H2). exists y. split; [right; exact H1|exact H2].
Qed.
Lemma steps_nonempty t ws rest : steps t ws rest -> Forall (fun p => fst p <> EOF -> snd p <> []) ws.
Proof.
  induction 1 as [t|k w t ws rest F S IH]; constructor; [|exact IH]. cbn [fst snd]. intros Hk ->.
  cbn [app tlen] in F. apply find_token_zero in F as [_ F]. congruence.
Qed.

Definition is_start (c : sink_call) : bool := match c with SStart _ => true | _ => false end.
Definition is_finish (c : sink_call) : bool := match c with SFinish => true | _ => false end.
(** nodes opened and closed by a sequence of calls *)
Definition opened (cs : list sink_call) : nat := length (filter is_start cs).
Definition closed (cs : list sink_call) : nat := length (filter is_finish cs).
Lemma opened_app a b : opened (a ++ b) = (opened a + opened b)%nat.
Proof. unfold opened. rewrite filter_app, app_length. reflexivity. Qed.
Lemma closed_app a b : closed (a ++ b) = (closed a + closed b)%nat.
Proof. unfold closed. rewrite filter_app, app_length. reflexivity. Qed.

Lemma flat1_balanced x : opened (flat1 x) = closed (flat1 x) /\ forall b a, flat1 x = b ++ a -> (closed b <= opened b)%nat.
Proof.
  induction x as [k cs IH|k|m] using tree_ind2.
  - assert (X : opened (flat cs) = closed (flat cs) /\ forall b a, flat cs = b ++ a -> (closed b <= opened b)%nat).
    { clear k. induction IH as [|x cs [H1 H2] _ [I1 I2]].
      - split; [reflexivity|]. intros b a E. symmetry in E. apply app_eq_nil in E as [-> _]. cbn. lia.
      - cbn [flat flat_map]. split; [rewrite opened_app, closed_app; unfold flat in I1; lia|].
        intros b a E. apply app_eq_app in E as [m [[E1 E2]|[E1 E2]]].
        + apply (H2 _ _ E1).
        + subst b. rewrite opened_app, closed_app. specialize (I2 _ _ E2). lia. }
    destruct X as [X1 X2]. change (flat1 (TNode k cs)) with (SStart k :: flat cs ++ [SFinish]).
    split.
    + change (SStart k :: flat cs ++ [SFinish]) with ([SStart k] ++ flat cs ++ [SFinish]).
      rewrite !opened_app, !closed_app. cbn. lia.
    + intros b a E. destruct b as [|c b]; [cbn; lia|]. injection E as <- E.
      change (SStart k :: b) with ([SStart k] ++ b). rewrite opened_app, closed_app.
      apply app_eq_app in E as [m [[E1 E2]|[E1 E2]]].
      * specialize (X2 _ _ E1). cbn. lia.
      * subst b. rewrite opened_app, closed_app. destruct m as [|c m]; [cbn; lia|].
        destruct m; [|destruct m; discriminate]. injection E2 as <- _. cbn. unfold opened, closed in *. lia.
  - split; [reflexivity|]. intros [|c [|]] a E; cbn; try lia; try discriminate. injection E as <- _. cbn. lia.
  - split; [reflexivity|]. intros [|c [|]] a E; cbn; try lia; try discriminate. injection E as <- _. cbn. lia.
Qed.
Lemma flat_balanced x : opened (flat [x]) = closed (flat [x]).
Proof. unfold flat. cbn [flat_map]. rewrite app_nil_r. apply flat1_balanced. Qed.
Lemma flat_prefix f b a : flat f = b ++ a -> (closed b <= opened b)%nat.
Proof.
  revert b a. induction f as [|x f IH]; intros b a E.
  - symmetry in E. apply app_eq_nil in E as [-> _]. cbn. lia.
  - cbn [flat flat_map] in E. apply app_eq_app in E as [m [[E1 E2]|[E1 E2]]].
    + apply (proj2 (flat1_balanced x) _ _ E1).
    + subst b. rewrite opened_app, closed_app. pose proof (proj1 (flat1_balanced x)).
      assert (closed m <= opened m)%nat; [|lia]. exact (IH _ _ E2).
Qed.

Lemma interp_more (r1 r2 : forall f, pstate -> res (fn_ret f * pstate)) {A} (p : prog A) :
  (forall f s, r1 f s <> Fuel -> r2 f s = r1 f s) ->
  forall s, interp r1 p s <> Fuel -> interp r2 p s = interp r1 p s.
Proof.
  intros H. induction p as [a|B c k IH|f k IH]; intros s N; cbn [interp] in *; [reflexivity| |].
  - destruct (exec c s) as [[b s']| |]; cbn [bind] in *; auto.
  - destruct (r1 f s) as [[b s']|w|] eqn:E; cbn [bind] in *.
    + rewrite (H f s), E by congruence. cbn [bind]. auto.
    + rewrite (H f s), E by congruence. reflexivity.
    + congruence.
Qed.
Lemma run_more n : forall m f s, (n <= m)%nat -> run n f s <> Fuel -> run m f s = run n f s.
Proof.
  induction n as [|n IH]; intros m f s Hm N; [cbn in N; congruence|].
  destruct m as [|m]; [lia|]. cbn [run] in *. apply interp_more; [|exact N].
  intros f' s' N'. apply IH; [lia|exact N'].
Qed.
