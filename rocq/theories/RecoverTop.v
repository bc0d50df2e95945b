(** Whole files, with and without mistakes. *)
From Coq Require Import String.
From Verif Require Import Base BaseProofs Kinds KindsProofs LexSpec TokenSet Lexer LexerRuns LexerProofs LexerStateProofs
  Parser Grammar Sink TreeSpec GreenSpec ParserLogic GrammarProofs ProcessProofs SinkProofs TermProofs ParseProofs
  SyntaxSpec AcceptTop LenientSpec LenientLogic LenientTop GapSpec GapTop AddressProofs RecoverSpec RecoverLogic RecoverProofs.
Local Open Scope N_scope.

(** ** Blanks in front of everything *)
Lemma filter_errs f : flat_map errs1 (filter not_blank f) = flat_map errs1 f.
Proof.
  induction f as [|x f IH]; [reflexivity|]. cbn [filter flat_map]. destruct (not_blank x) eqn:E; cbn [flat_map]; rewrite IH; [reflexivity|].
  destruct x as [|k|]; try discriminate E. reflexivity.
Qed.
Lemma filter_noted f : forall n, noted n (filter not_blank f) = noted n f.
Proof.
  induction f as [|x f IH]; intros n; [reflexivity|]. cbn [filter]. destruct (not_blank x) eqn:E.
  - cbn [noted]. rewrite IH. reflexivity.
  - destruct x as [|k|]; try discriminate E. cbn [noted noted1 app]. unfold solid_leaves. cbn [flat_map leaves app filter].
    cbn in E. rewrite E. cbn [length]. rewrite Nat.add_0_r. apply IH.
Qed.
Lemma file_no_errs f : made RFile f -> forall m, ~ In (TErr m) f.
Proof.
  remember RFile as x eqn:E. induction 1; inversion E; subst; intros m H'; cbn [In] in H'; [exact H'|].
  destruct H' as [H'|H']; [|eapply IHmade2; eauto]. subst.
  match goal with H : made RTop _ |- _ => inversion H; subst end.
  match goal with H : made RModule _ |- _ => inversion H end.
Qed.
Lemma remap_solid k0 k : remap k0 k -> is_trivia k0 = false -> is_trivia k = false.
Proof. intros [-> | [-> ->]] H; [exact H|reflexivity]. Qed.
Lemma solids gs ks : Forall solid gs -> Forall2 (fun (g : group) k => remap (fst (fst g)) k) gs ks -> Forall (fun k => is_trivia k = false) ks.
Proof.
  intros S F. induction F as [|g k gs ks R _ IH]; [constructor|]. inversion S; subst. constructor; [eapply remap_solid; eassumption|auto].
Qed.
Lemma filter_leaves f : Forall (fun k => is_trivia k = false) (flat_map leaves f) -> filter not_blank f = f.
Proof.
  induction f as [|x f IH]; [reflexivity|]. cbn [flat_map filter]. intros H. apply Forall_app in H as [H1 H2]. rewrite IH by exact H2.
  destruct x as [|k|]; try reflexivity. inversion H1; subst. cbn. match goal with E : is_trivia k = false |- _ => rewrite E end. reflexivity.
Qed.
Lemma unmarked_leaves x : flat_map leaves (unmarked x) = leaves x.
Proof.
  induction x as [k cs IH|k|m] using tree_ind2; cbn [unmarked flat_map leaves]; rewrite ?app_nil_r; try reflexivity.
  induction IH as [|x cs H _ IHcs]; [reflexivity|]. cbn [flat_map]. rewrite flat_map_app, H, IHcs. reflexivity.
Qed.
Lemma unmarked_fleaves f : flat_map leaves (flat_map unmarked f) = flat_map leaves f.
Proof. induction f as [|x f IH]; [reflexivity|]. cbn [flat_map]. rewrite flat_map_app, unmarked_leaves, IH. reflexivity. Qed.

(** ** The parser *)
Lemma made_parse t g errs : tlen t < u32_bound -> parse_text t = Ok (g, errs) ->
  exists f, made RFile f /\ strip g = [TNode SOURCE_FILE (flat_map unmarked f)] /\ map se_msg errs = flat_map complaints f /\
    forall ws, token_stream t ws -> ascii_strings t ->
      Forall2 stands_for (flat_map leaves f) (proper ws) /\
      Forall2 (beside ws) (noted 0 f) (map (fun e => (se_msg e, se_pos e)) errs).
Proof.
  intros Hs P0. pose proof P0 as P. unfold parse_text in P. apply bind_ok in P as (lx & HL & P). unfold parse_with_lexer in P.
  pose proof (grammar_sound t lx (parse_fuel (lx_text lx)) HL) as G.
  destruct (interp (run (parse_fuel (lx_text lx))) root (parser_new lx)) as [[u s]|w|] eqn:E; cbn [bind] in P; try discriminate P.
  destruct G as (F & gs & Pd). destruct (build_ok _ _ _ _ _ Hs Pd) as (g' & errs' & B & O).
  rewrite B in P. injection P as -> ->.
  destruct (run_root_made _ _ _ _ _ HL E) as (new & D & Lf).
  pose proof (den_inj _ _ _ D (p_den _ _ _ _ _ Pd)) as Y. injection Y as ->.
  exists (filter not_blank F). split; [exact Lf|].
  assert (Sd : Forall (fun k => is_trivia k = false) (flat_map leaves (filter not_blank F))).
  { pose proof (p_leaves _ _ _ _ _ Pd) as L. pose proof (p_solid _ _ _ _ _ Pd) as S. pose proof (p_first _ _ _ _ _ Pd) as T.
    unfold fleaves in L. destruct gs as [|g0 gs].
    - assert (Z : flat_map leaves F = []) by (inversion L; auto). rewrite filter_leaves; rewrite Z; constructor.
    - cbn [tl] in S. destruct (is_trivia (fst (fst g0))) eqn:K.
      + destruct (T _ _ eq_refl) as (k & F' & ->). { unfold solid. rewrite K. discriminate. }
        cbn [flat_map leaves app] in L. inversion L as [|? ? ? ? R L']; subst. apply (solids _ _ S) in L'.
        assert (is_trivia k = true) by (destruct R as [-> | [R _]]; [exact K|rewrite R in K; discriminate]).
        cbn [filter not_blank]. rewrite H. cbn [negb]. rewrite filter_leaves by exact L'. exact L'.
      + assert (X : Forall (fun k => is_trivia k = false) (flat_map leaves F)) by (eapply solids; [constructor; [exact K|exact S]|exact L]).
        rewrite filter_leaves by exact X. exact X. }
  destruct (ro_root _ _ _ _ _ O) as (cs & Eg & Sc).
  assert (St : strip g = [TNode SOURCE_FILE (flat_map unmarked (filter not_blank F))]).
  { rewrite Eg. cbn [strip]. rewrite Sc, <- filter_strip, strips_unmarked by exact Sd. reflexivity. }
  split; [exact St|]. split.
  { rewrite (ro_msgs _ _ _ _ _ O), <- filter_errs. apply errs_forest. }
  intros ws Ts A. split.
  - destruct (parse_addresses t g errs _ Hs P0 St) as (ws' & S' & R' & W).
    assert (ws' = ws) by (eapply steps_same; [exact S'|exact R'|exact (stream_steps _ _ Ts A)|exact (stream_no_eof _ _ Ts)]). subst ws'.
    pose proof (written_stands t ws _ Ts W) as X. rewrite unmarked_fleaves in X. exact X.
  - assert (W : ws = ungroup gs).
    { eapply steps_same; [apply (stream_steps _ _ Ts A)|apply (stream_no_eof _ _ Ts)|apply O|apply O]. }
    subst ws. apply spots_beside. rewrite filter_noted. apply (ro_spots _ _ _ _ _ O). intros m I.
    apply (file_no_errs _ Lf m). apply filter_In. split; [exact I|reflexivity].
Qed.

(** ** The nodes of such a tree *)
Fixpoint every (P : kind -> list tree -> Prop) (t : tree) : Prop :=
  match t with
  | TNode k cs => P k cs /\ fold_right (fun c a => every P c /\ a) True cs
  | _ => True
  end.
Definition everyf (P : kind -> list tree -> Prop) (f : list tree) : Prop := fold_right (fun c a => every P c /\ a) True f.
Lemma everyf_app P f g : everyf P f -> everyf P g -> everyf P (f ++ g).
Proof. intros H1 H2. induction f as [|x f IH]; [exact H2|]. destruct H1 as [H0 H1]. split; [exact H0|exact (IH H1)]. Qed.
Lemma everyf_toks P js : everyf P (map TTok js).
Proof. induction js; cbn; auto. Qed.
Lemma everyf_in P f x : everyf P f -> In x f -> every P x.
Proof. induction f as [|y f IH]; cbn; [contradiction|]. intros [H1 H2] [-> | H]; auto. Qed.
Lemma everyf_within P k cs f : within k cs f -> everyf P f -> P k cs.
Proof.
  induction 1 as [f H|k' cs' f H _ IH]; intros E; pose proof (everyf_in _ _ _ E H) as X; cbn [every] in X; [apply X|apply IH, X].
Qed.
Lemma within_unmarked k cs f : within k cs (flat_map unmarked f) -> exists cs', within k cs' f /\ cs = flat_map unmarked cs'.
Proof.
  remember (flat_map unmarked f) as u eqn:E. intros H. revert f E. induction H as [u H|k' cs0 u H _ IH]; intros f ->.
  - apply in_flat_map in H as (x & I & H). destruct x as [k1 c1|k1|m1]; cbn [unmarked] in H; [|destruct H as [H|[]]; discriminate H|destruct H]; destruct H as [H|[]].
    injection H as -> <-. exists c1. split; [constructor; exact I|reflexivity].
  - apply in_flat_map in H as (x & I & H). destruct x as [k1 c1|k1|m1]; cbn [unmarked] in H; [|destruct H as [H|[]]; discriminate H|destruct H]; destruct H as [H|[]].
    injection H as -> <-. destruct (IH c1 eq_refl) as (cs' & W & ->). exists cs'. split; [|reflexivity]. eapply within_below; eassumption.
Qed.

(** operands *)
Lemma atom_not_bin cs : ~ made RAtom [TNode BIN_EXPR cs].
Proof. intros H. inversion H; subst. match goal with H : made RBlock _ |- _ => inversion H end. Qed.
Lemma unary_not_bin cs : ~ made RUnary [TNode BIN_EXPR cs].
Proof.
  intros H. inversion H; subst. match goal with H : made RPostfix _ |- _ => inversion H; subst end.
  eapply atom_not_bin; eassumption.
Qed.
Lemma block_node f : made RBlock f -> exists ss, f = [TNode BLOCK_EXPR ss].
Proof. intros H. inversion H; subst. eauto. Qed.
Lemma expr_node p e : made (RExpr p) [e] -> exists k cs, e = TNode k cs.
Proof.
  intros H. inversion H; subst; [|eauto].
  match goal with H : made RUnary _ |- _ => inversion H; subst end; [eauto| |unfold skipped; eauto].
  match goal with H : made RPostfix _ |- _ => inversion H; subst end; eauto.
  match goal with H : made RAtom _ |- _ => inversion H; subst end; eauto.
  match goal with H : made RBlock _ |- _ => apply block_node in H as (ss & H); injection H as -> end. eauto.
Qed.
Lemma tighter p e l op r q : made (RExpr p) [e] -> unmarked e = [TNode BIN_EXPR [l; TTok op; r]] -> prec op = Some q -> p <= q.
Proof.
  intros H E Q. destruct (expr_node _ _ H) as (k & cs & ->). cbn [unmarked] in E. injection E as -> E.
  inversion H; subst; [exfalso; eapply unary_not_bin; eassumption|].
  match goal with A : made _ [?x], B : made _ [?y], C : flat_map unmarked [?x; TTok _; ?y] = _ |- _ =>
    destruct (expr_node _ _ A) as (? & ? & ->); destruct (expr_node _ _ B) as (? & ? & ->); cbn in C; injection C as _ -> _ end.
  match goal with X : prec op = Some _ |- _ => rewrite X in Q end. injection Q as <-. assumption.
Qed.

Definition node_parts (k : kind) (cs : list tree) : Prop :=
  match k with
  | BIN_EXPR => operation (flat_map unmarked cs)
  | FUNCTION_DEF => function_parts (flat_map unmarked cs)
  | STRUCT => struct_parts (flat_map unmarked cs)
  | MODULE_DEF => module_parts (flat_map unmarked cs)
  | ERROR => error_parts (flat_map unmarked cs)
  | _ => True
  end.
Lemma unmarked_toks js : flat_map unmarked (map TTok js) = map TTok js.
Proof. induction js as [|k js IH]; [reflexivity|]. cbn. rewrite IH. reflexivity. Qed.
Lemma error_toks m js : node_parts ERROR (TErr m :: map TTok js).
Proof. left. exists js. cbn. apply unmarked_toks. Qed.
Lemma error_one m k : node_parts ERROR [TErr m; TTok k].
Proof. left. exists [k]. reflexivity. Qed.
Lemma error_none m : node_parts ERROR [TErr m].
Proof. left. exists []. reflexivity. Qed.
Lemma missing_every m s x : missing m s x -> every node_parts x.
Proof. intros []; cbn [every fold_right instead]; auto using error_none, error_one. Qed.
Lemma missing_most m s x ks : missing m s x -> In ERROR ks -> at_most_one ks (unmarked x).
Proof. intros [] HI; cbn; [left; reflexivity|right; eauto..]. Qed.
Lemma tok_every k x : token_or_message k x -> every node_parts x.
Proof. intros [-> | ->]; exact I. Qed.
Lemma name_most s n : made (RName s) [n] -> at_most_one [NAME; ERROR] (unmarked n).
Proof. intros H. inversion H; subst; [right; do 2 eexists; split; [left; reflexivity|reflexivity]|eapply missing_most; [eassumption|cbn; auto]]. Qed.
Lemma generics_most f : made RGenerics f -> at_most_one [GENERIC_PARAM_LIST] (flat_map unmarked f).
Proof. intros H. inversion H; subst; [left; reflexivity|right]. do 2 eexists. split; [left; reflexivity|reflexivity]. Qed.
Lemma ret_most f : made RRet f -> at_most_one [RET_TYPE] (flat_map unmarked f).
Proof. intros H. inversion H; subst; [left; reflexivity|right]. do 2 eexists. split; [left; reflexivity|reflexivity]. Qed.
Lemma body_most f : made RBody f -> at_most_one [ITEM_LIST] (flat_map unmarked f) \/ flat_map unmarked f = [TTok SEMICOLON].
Proof. intros H. inversion H; subst; [left; right; do 2 eexists; split; [left; reflexivity|reflexivity]|right; reflexivity|left; left; reflexivity]. Qed.
Lemma most_here k cs : at_most_one [k] [TNode k cs].
Proof. right. do 2 eexists. split; [left; reflexivity|reflexivity]. Qed.
Lemma block_most b : made RFunBody [b] -> at_most_one [BLOCK_EXPR] (unmarked b).
Proof.
  intros H. inversion H; subst; [|left; reflexivity]. match goal with X : made RBlock _ |- _ => apply block_node in X as (ss & X); injection X as -> end.
  apply most_here.
Qed.

Lemma function_shape n ps r b : made (RName item_stop) [n] ->
    made RParamList [ps] -> made RRet r -> made RFunBody [b] -> node_parts FUNCTION_DEF (TTok FUN_KW :: n :: ps :: r ++ [b]).
Proof.
  intros H1 H2 H3 H4. exists (unmarked n), (unmarked ps), (flat_map unmarked r), (unmarked b).
  split; [cbn [flat_map]; rewrite flat_map_app; cbn [flat_map]; rewrite app_nil_r; reflexivity|].
  split; [eapply name_most; eassumption|]. split; [|split; [apply ret_most; assumption|apply block_most; assumption]].
  inversion H2; subst; [apply most_here|left; reflexivity].
Qed.
Lemma struct_shape n g x : made (RName item_stop) [n] -> made RGenerics g -> (at_most_one [RECORD_FIELD_LIST] (unmarked x) \/ unmarked x = [TTok SEMICOLON]) ->
  node_parts STRUCT (TTok STRUCT_KW :: n :: g ++ [x]).
Proof.
  intros H1 H2 H3. exists (unmarked n), (flat_map unmarked g), (unmarked x).
  split; [cbn [flat_map]; rewrite flat_map_app; cbn [flat_map]; rewrite app_nil_r; reflexivity|].
  split; [eapply name_most; eassumption|]. split; [apply generics_most; assumption|exact H3].
Qed.
Lemma module_shape n b : made (RName []) [n] -> made RBody b -> node_parts MODULE_DEF (TTok MODULE_KW :: n :: b).
Proof.
  intros H1 H2. exists [], (unmarked n), (flat_map unmarked b). split; [reflexivity|]. split; [left; reflexivity|].
  split; [eapply name_most; eassumption|apply body_most; assumption].
Qed.
Lemma module_at_shape a n b : made (RName []) [n] -> made RBody b ->
  node_parts MODULE_DEF (TTok MODULE_KW :: TNode ADDRESS_IDENT [a] :: TTok COLON_COLON :: n :: b).
Proof.
  intros H1 H2. eexists [_; _], (unmarked n), (flat_map unmarked b). split; [reflexivity|]. split; [right; eauto|].
  split; [eapply name_most; eassumption|apply body_most; assumption].
Qed.
Lemma bin_shape q l op r : prec op = Some q -> made (RExpr q) [l] -> made (RExpr (q + 1)) [r] -> node_parts BIN_EXPR [l; TTok op; r].
Proof.
  intros Q H1 H2. pose proof (tighter q l) as T1. pose proof (tighter (q + 1) r) as T2.
  destruct (expr_node _ _ H1) as (k1 & c1 & E1). destruct (expr_node _ _ H2) as (k2 & c2 & E2).
  exists (TNode k1 (flat_map unmarked c1)), op, (TNode k2 (flat_map unmarked c2)), q.
  split; [subst; reflexivity|]. split; [exact Q|]. split; intros l' op' r' q' X Y.
  - eapply T1; [exact H1| |exact Y]. subst l. cbn [unmarked]. rewrite X. reflexivity.
  - enough (q + 1 <= q') by lia. eapply T2; [exact H2| |exact Y]. subst r. cbn [unmarked]. rewrite X. reflexivity.
Qed.
Lemma junk_shape m js c : node_parts ERROR (TErr m :: TTok L_BRACE :: js ++ c).
Proof. right. exists (flat_map unmarked (js ++ c)). reflexivity. Qed.

Ltac flat := repeat match goal with
  | H : everyf _ (_ :: _) |- _ => destruct H
  | H : token_or_message _ _ |- _ => apply tok_every in H
  | H : missing _ _ _ |- _ => apply missing_every in H
  | |- everyf _ (_ :: _) => split
  | |- everyf _ [] => exact I
  | |- everyf _ (_ ++ _) => apply everyf_app
  | |- everyf _ (map TTok _) => apply everyf_toks
  | |- every _ (TNode _ ?cs) => split; [|change (everyf node_parts cs)]
  | |- every _ (TTok _) => exact I
  | |- every _ (TErr _) => exact I
  | |- every _ (instead _ _) => split; [apply error_one|cbn; auto]
  | |- every _ name_node => cbn; auto
  | |- every _ name_ref_node => cbn; auto
  | |- every _ segment_node => cbn; auto
  | |- _ /\ _ => split
  end.
Lemma skipped_every m js : every node_parts (skipped m js).
Proof. split; [apply error_toks|]. split; [exact I|]. apply (everyf_toks node_parts js). Qed.
Lemma made_nodes s f : made s f -> everyf node_parts f.
Proof.
  induction 1; try (solve [flat; try assumption; try exact I]).
  all: flat; try assumption; try exact I; try apply skipped_every; try apply error_none; try apply junk_shape.
  all: try match goal with H : _ = _ \/ _ = _ |- _ => destruct H; subst; flat; exact I end.
  - apply module_shape; assumption.
  - apply module_at_shape; assumption.
  - apply struct_shape; [assumption..|]. left. apply most_here.
  - apply struct_shape; [assumption..|]. destruct H1 as [-> | ->]; [right; reflexivity|left; left; reflexivity].
  - apply function_shape; assumption.
  - apply bin_shape with q; assumption.
  - cbn in H. intuition (subst; exact I).
Qed.

(** ** The messages *)
Definition known (m : text) : Prop := In m all_messages.
Lemma toks_silent js : flat_map complaints (map TTok js) = [].
Proof. induction js; cbn; auto. Qed.
Lemma tok_known k x : token_or_message k x -> In k [R_BRACE; R_PAREN; GT; COMMA; COLON; SEMICOLON] -> Forall known (complaints x).
Proof.
  intros [-> | ->] HI; [constructor|]. constructor; [|constructor]. apply in_or_app. right. apply in_map. exact HI.
Qed.
Lemma missing_known m s x : missing m s x -> known m -> Forall known (complaints x).
Proof. intros [] K; (constructor; [exact K|constructor]). Qed.
Ltac knows := solve [unfold known, all_messages; cbn [In app map]; tauto].
Ltac say := repeat match goal with
  | |- Forall known (flat_map complaints (_ ++ _)) => rewrite flat_map_app
  | |- Forall known (_ ++ _) => apply Forall_app; split
  | H : Forall known (flat_map complaints [?x]) |- Forall known (complaints ?x) => cbn [flat_map] in H; rewrite app_nil_r in H; exact H
  | H : token_or_message _ ?x |- Forall known (complaints ?x) => apply (tok_known _ _ H); cbn [In]; tauto
  | H : missing _ _ ?x |- Forall known (complaints ?x) => apply (missing_known _ _ _ H); knows
  | |- Forall known (flat_map complaints (map TTok _)) => rewrite toks_silent
  | |- Forall known [] => constructor
  | |- Forall known (_ :: _) => constructor; [try knows|]
  | |- Forall known (flat_map complaints (_ :: _)) => cbn [flat_map]
  | |- Forall known (flat_map complaints []) => constructor
  | |- Forall known (complaints (TNode _ ?cs)) => change (Forall known (flat_map complaints cs))
  | |- Forall known (complaints (TErr ?m)) => change (Forall known [m])
  | |- Forall known (complaints _) => progress cbn [complaints instead skipped name_node name_ref_node segment_node]
  end.
Lemma made_messages s f : made s f -> (forall m, s = RJunkBlock m -> known m) -> Forall known (flat_map complaints f).
Proof.
  induction 1; intros J.
  all: repeat match goal with
    | H : (forall m, ?s = RJunkBlock m -> known m) -> Forall _ _ |- _ =>
        specialize (H ltac:(intros ? Z; first [discriminate Z|injection Z as <-; knows]))
    end.
  all: try solve [say; assumption].
  all: say; try assumption; try (apply J; reflexivity).
  all: match goal with H : _ \/ _ |- _ => destruct H; subst; say | H : In _ _ |- _ => cbn in H; intuition (subst; constructor) end.
Qed.
