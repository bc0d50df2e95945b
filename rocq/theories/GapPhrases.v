(** Items, patterns, expressions and statements with missing parts; the rest of GapProofs.v. *)
From Coq Require Import String.
From Verif Require Import Base BaseProofs Kinds KindsProofs LexSpec TokenSet Lexer LexerStateProofs
  Parser Grammar GrammarProofs TreeSpec ParserLogic ParserTotal SyntaxSpec LenientSpec AcceptRules AcceptProofs GapSpec GapRules GapProofs.
Local Open Scope N_scope.

Section Text.
  Variable t : text.
  Notation tw := (tw t).

  (** *** Items, modules and files *)
  Lemma b_item x : z_opt_item t [x] -> z_item t [x].
  Proof. intros HX gs rest l kids stk sp. init. unfold item. st. use HX. st. done_. Qed.

  Lemma b_items_nil : z_items t [].
  Proof. intros gs rest l kids stk sp F [C|C]; init; go items_body; done_. Qed.
  Lemma b_items x f : starts H_item [x] -> z_opt_item t [x] -> (f = [] \/ starts H_item f) -> z_items t f -> z_items t (x :: f).
  Proof.
    intros S1 H1 S2 H2 gs rest l kids stk sp F C. apply b_item in H1. init. first_off [R_BRACE; EOF]. go items_body.
    use H1; [next_off; destruct C as [C|C]; fol|]. use H2. done_.
  Qed.
  Lemma b_items_semi x f : starts H_item [x] -> z_opt_item t [x] -> z_items t f -> z_items t (x :: instead m_semi SEMICOLON :: f).
  Proof.
    intros S1 H1 H2 gs rest l kids stk sp F C.
    apply fit_cons in F as (g1 & g2 & F1 & F2 & ->).
    apply fit_instead in F2 as ([[k' w] tr] & gs' & E & F2 & ->); [|discriminate]. cbn [fst snd] in E. subst k'. init.
    first_off [R_BRACE; EOF]. go items_body. unfold item. st. use H1. st. unfold err_and_bump.
    apply r_instead; try discriminate; [reflexivity|]. intros ?. cbn [fst snd]. use H2. done_.
  Qed.

  Lemma r_address_name a gs rest l kids stk sp (Q : _ -> tst -> Prop) : z_address_name [a] -> fit [a] gs rest -> sp <= 10000 ->
    (forall l' sp', sp' <= sp + 1 -> Q true (TS rest l' (kids ++ [a]) stk sp')) ->
    tw bump_address (TS (gs ++ rest) l kids stk sp) Q.
  Proof.
    intros [E|E] F L HQ; injection E as ->; init; unfold bump_address; st.
    - match goal with |- context [starts_with ?a ?b] => replace (starts_with a b) with true by (symmetry; apply starts_with_spec; eauto) end.
      st. apply HQ. wl.
    - apply HQ. wl.
  Qed.

  Lemma b_module b : z_module_body t b -> z_module t [TNode MODULE_DEF (TTok MODULE_KW :: name_node :: b)].
  Proof.
    intros [-> | [-> | (is & cl & -> & HI & HC)]] gs rest l kids stk sp; [| |pose proof (close_weight _ HC)]; init; unfold module; st.
    - unfold nth_at. st. apply r_nth1; [wl|left; reflexivity|]. intros y Hy. st.
      rewrite (Hy COLON_COLON ltac:(unfold opens; tauto)). kev. st. done_.
    - behind g_body [COLON_COLON; L_BRACE; SEMICOLON]. unfold nth_at. st. apply r_nth1; [wl|left; reflexivity|]. intros y Hy. st.
      rewrite (Hy COLON_COLON ltac:(unfold opens; tauto)). kev. st. done_.
    - unfold nth_at. st. apply r_nth1; [wl|left; reflexivity|]. intros y Hy. st.
      rewrite (Hy COLON_COLON ltac:(unfold opens; tauto)). kev. st. unfold item_list. st. use HI; [closed HC|]. st. close_ HC. st. done_.
  Qed.
  Lemma b_module_gap is c : is = [] \/ starts H_item is -> z_items t is -> z_close c ->
    z_module t [TNode MODULE_DEF [TTok MODULE_KW; TErr m_name; TNode ITEM_LIST (TTok L_BRACE :: is ++ c)]].
  Proof.
    intros S1 HI HC gs rest l kids stk sp. pose proof (close_weight _ HC). init. unfold module. st. unfold nth_at. st.
    apply r_nth1_any; [wl|]. intros y Hy. st.
    assert (Y : kind_eqb y COLON_COLON = false).
    { destruct Hy as [-> | ->]; [reflexivity|].
      assert (off [COLON_COLON] (gcur (x ++ x3 ++ rest))); [|offs; assumption]. next_off.
      destruct (closes_close _ _ _ HC ltac:(eassumption)) as [E|E]; rewrite E; reflexivity. }
    rewrite Y. st. unfold name, name_r. st. apply r_recover; [auto|]. st. unfold item_list. st. use HI; [closed HC|]. st. close_ HC. st. done_.
  Qed.

  Lemma b_module_at a b : z_address_name [a] -> z_module_body t b ->
    z_module t [TNode MODULE_DEF (TTok MODULE_KW :: TNode ADDRESS_IDENT [a] :: TTok COLON_COLON :: name_node :: b)].
  Proof.
    intros HA HB gs rest l kids stk sp. pose proof (address_weight a HA). init. unfold module. st. unfold nth_at. st.
    assert (G : exists g, x = [g] /\ (fst (fst g) = IDENT \/ fst (fst g) = INTEGER_NUMBER)).
    { destruct HA as [E|E]; injection E as ->; fitz; eexists; (split; [reflexivity|]); auto. }
    destruct G as (g & -> & G). cbn [app]. apply r_nth1; [wl|exact G|]. intros y Hy. st.
    rewrite (Hy COLON_COLON ltac:(unfold opens; tauto)). kev. st. unfold address_ident_r. st.
    change (g :: ?r) with ([g] ++ r). eapply r_address_name; [exact HA|eassumption|wl|]. intros l' sp' B. st.
    destruct HB as [-> | [-> | (is & cl & -> & HI & HC)]]; fitz; [|behind g_body [L_BRACE; SEMICOLON]|pose proof (close_weight _ HC)];
      repeat (progress (rewrite <- ?app_assoc; cbn [app])); kev; st.
    - done_.
    - done_.
    - unfold item_list. st. use HI; [closed HC|]. st. close_ HC. st. done_.
  Qed.

  Lemma b_modules_nil : z_modules t [].
  Proof. intros gs rest l kids stk sp F [C|C]; init; go address_items_body; done_. Qed.
  Lemma b_modules x f : starts [MODULE_KW] [x] -> z_module t [x] -> z_modules t f -> z_modules t (x :: f).
  Proof.
    intros S1 HX HF gs rest l kids stk sp. init. first_is. go address_items_body. use HX. use HF. done_.
  Qed.

  Lemma b_top_module x : starts [MODULE_KW] [x] -> z_module t [x] -> z_top t [x].
  Proof.
    intros S1 HX gs rest l kids stk sp Q. init. first_is. go root_body. use HX.
    match goal with H : forall _ _, _ -> tw _ _ _ |- _ => apply H end. wl.
  Qed.
  Lemma b_script is c : z_items t is -> z_close c ->
    z_top t [TNode SCRIPT_DEF [TTok SCRIPT_KW; TNode ITEM_LIST (TTok L_BRACE :: is ++ c)]].
  Proof.
    intros HI HC gs rest l kids stk sp Q. pose proof (close_weight _ HC). init. go root_body. unfold script. st. unfold item_list. st.
    use HI; [closed HC|]. st. close_ HC. st. norm.
    match goal with H : forall _ _, _ -> tw _ _ _ |- _ => apply H end. wl.
  Qed.
  Lemma b_script_semi : z_top t [TNode SCRIPT_DEF [TTok SCRIPT_KW; TTok SEMICOLON]].
  Proof.
    intros gs rest l kids stk sp Q. init. go root_body. unfold script. st. norm.
    match goal with H : forall _ _, _ -> tw _ _ _ |- _ => apply H end. wl.
  Qed.
  Lemma b_script_gap : z_top t [TNode SCRIPT_DEF [TTok SCRIPT_KW; TErr m_body]].
  Proof.
    intros gs rest l kids stk sp Q. init. behind g_body [L_BRACE; SEMICOLON]. go root_body. unfold script. st. norm.
    match goal with H : forall _ _, _ -> tw _ _ _ |- _ => apply H end. wl.
  Qed.

  Lemma ts_not ks k : ~ In k ks -> ts_has ks k = false.
  Proof. intros H. rewrite ts_has_spec. apply off_not. exact H. Qed.
  Lemma ts_yes ks k : In k ks -> ts_has ks k = true.
  Proof. intros H. rewrite ts_has_spec. apply existsb_exists. exists k. split; [exact H|apply kind_eqb_refl]. Qed.
  Lemma no_address js gs rest m : junk [IDENT; INTEGER_NUMBER] m js -> Forall2 (fun k (g : group) => fst (fst g) = k) js gs ->
    off [IDENT; INTEGER_NUMBER] (gcur rest) -> off [IDENT; INTEGER_NUMBER] (gcur (gs ++ rest)).
  Proof.
    intros [J _] F O. destruct F as [|k g js gs E F]; [exact O|]. cbn [app gcur]. rewrite E. apply off_not. eapply J. reflexivity.
  Qed.
  Lemma b_address a b : z_address_of [a] -> z_modules_of t [b] ->
    z_top t [TNode ADDRESS_DEF [TTok ADDRESS_KW; TNode ADDRESS_IDENT [a]; b]].
  Proof.
    intros HA HM gs rest l kids stk sp Q F L HQ.
    assert (X : forall gs rest l kids stk sp (Q : _ -> tst -> Prop), fit [a] gs rest -> sp + 5 * weight1 a <= 10000 ->
      (forall l' sp', sp' + 4 <= sp + 5 * weight1 a -> Q tt (TS rest l' (kids ++ [TNode ADDRESS_IDENT [a]]) stk sp')) ->
      tw (address_ident_r (TOP_LEVEL_ITEM_RECOVERY_SET ++ [L_BRACE])) (TS (gs ++ rest) l kids stk sp) Q).
    { clear - HA. intros gs rest l kids stk sp Q F L HQ. destruct HA as [HA|(js & E & J)].
      - rewrite (address_weight a HA) in *. unfold address_ident_r. st.
        eapply r_address_name; [exact HA|eassumption|lia|]. intros l' sp' B. st. apply HQ. lia.
      - injection E as ->. unfold address_ident_r. st. unfold bump_address.
        apply fit_skipped in F as (g1 & g2 & F1 & G & F2 & ->); [|reflexivity|].
        2:{ eapply Forall_impl; [|exact (proj2 J)]. cbn. tauto. }
        apply fit_nil_inv in F2. subst g2. rewrite app_nil_r. cbn [app] in G. apply g_address in G.
        pose proof (no_address js g1 rest _ J F1 (in_off _ _ [IDENT; INTEGER_NUMBER] G eq_refl)). offs. st.
        eapply r_skipped; [exact F1| | |].
        + eapply Forall_impl; [|exact (proj2 J)]. clear. intros k [N _]. apply ts_not. intros X. apply N. constructor. cbn in *. tauto.
        + clear - G. apply ts_yes. cbn in *. tauto.
        + intros ?. st. apply HQ. unfold skipped. wl. }
    apply fit_one in F; [|discriminate]. apply fit_tok in F as ([[k w] tr] & gs1 & K & F & ->). cbn in K. subst k.
    apply fit_node in F as (g1 & g2 & F1 & F2 & ->); [|discriminate]. rewrite !weight_cons, weight_node, weight_cons in L.
    cbn [weight1] in L. rewrite weight_cons, weight_node in HQ. repeat (progress (rewrite <- ?app_assoc; cbn [app])).
    go root_body. unfold address. st. apply X; [exact F1|wl|]. intros l' sp' B. st. clear X F1.
    destruct HM as [E | (ms & cl & E & HM & HC)]; injection E as ->; [|pose proof (close_weight _ HC)]; fitz;
      [behind g_modules [L_BRACE]|]; repeat (progress (rewrite <- ?app_assoc; cbn [app])); kev; st; norm.
    - apply HQ. wl.
    - unfold address_item_list. st. use HM; [closed HC|]. st. close_ HC. st. norm. apply HQ. wl.
  Qed.

  Lemma b_file_nil : z_file t [].
  Proof. intros gs rest l kids stk sp. init. go root_body. done_. Qed.
  Lemma b_file x f : z_top t [x] -> z_file t f -> z_file t (x :: f).
  Proof.
    intros HX HF gs rest l kids stk sp. init. eapply HX; [eassumption|wl|]. intros l' sp' B. use HF. done_.
  Qed.

  (** *** Patterns *)
  Lemma b_pat_name : z_pattern t [TNode IDENT_PAT [name_node]].
  Proof.
    intros gs rest l kids stk sp F O. specialize (O eq_refl). init. go pattern_body. apply r_nth1; [wl|left; reflexivity|]. intros y Hy.
    rewrite (Hy L_BRACE ltac:(unfold opens; tauto)). kev. st. unfold ident_pat. st. done_.
  Qed.
  Lemma b_pat_mut : z_pattern t [TNode IDENT_PAT [TTok MUT_KW; name_node]].
  Proof. intros gs rest l kids stk sp. init. go pattern_body. unfold ident_pat. st. done_. Qed.
  Lemma b_pat_wildcard : z_pattern t [TNode WILDCARD_PAT [TTok WILDCARD]].
  Proof. intros gs rest l kids stk sp. init. go pattern_body. unfold wildcard_pat. st. done_. Qed.
  Lemma b_pat_record fs : z_field_pats t fs ->
    z_pattern t [TNode RECORD_PAT [TNode PATH [segment_node];
                   TNode RECORD_PAT_FIELD_LIST (TTok L_BRACE :: fs ++ [TTok R_BRACE])]].
  Proof.
    intros HF gs rest l kids stk sp. init. go pattern_body. apply r_nth1; [wl|left; reflexivity|]. intros y Hy.
    rewrite (Hy L_BRACE ltac:(unfold opens; tauto)). kev. st. unfold path_pat. st. unfold is_path_start. st.
    unfold expr_path.
    match goal with |- ParserTotal.tw _ _ (TS (?g :: ?r) _ _ _ _) _ => change (g :: r) with ([g] ++ r) end.
    eapply r_path; [apply b_path_name|split; [repeat constructor|exact I]|fol|cbn; wl|]. intros l' sp' B. cbn in B. st.
    unfold record_pat_field_list. st. use HF. st. done_.
  Qed.
  Lemma b_field_pat_short : z_field_pat t [TNode RECORD_PAT_FIELD [TNode IDENT_PAT [name_node]]].
  Proof.
    intros gs rest l kids stk sp. init. unfold record_pat_field. st. apply r_nth1; [wl|left; reflexivity|]. intros y Hy. st.
    rewrite (Hy COLON ltac:(unfold opens; tauto)). kev. st. unfold ident_pat. st. done_.
  Qed.
  Lemma b_field_pat_mut : z_field_pat t [TNode RECORD_PAT_FIELD [TNode IDENT_PAT [TTok MUT_KW; name_node]]].
  Proof. intros gs rest l kids stk sp. init. unfold record_pat_field. st. unfold ident_pat. st. done_. Qed.
  Lemma b_field_pat p : z_pattern t [p] -> z_field_pat t [TNode RECORD_PAT_FIELD [name_ref_node; TTok COLON; p]].
  Proof.
    intros HP gs rest l kids stk sp. init. unfold record_pat_field. st. apply r_nth1; [wl|left; reflexivity|]. intros y Hy. st.
    rewrite (Hy COLON ltac:(unfold opens; tauto)). kev. st. unfold pattern. use HP. st. done_.
  Qed.
  Lemma b_pattern_gap : z_pattern t [TErr m_pattern].
  Proof.
    intros gs rest l kids stk sp. init. behind g_pattern [MUT_KW; IDENT; DOT; WILDCARD; L_PAREN]. go pattern_body.
    apply r_recover; [known g_pattern|done_].
  Qed.
  Lemma b_pattern_wrong k : wrong [IDENT; MUT_KW; L_PAREN; WILDCARD] m_pattern k -> z_pattern t [instead m_pattern k].
  Proof.
    intros (W1 & W2 & W3) gs rest l kids stk sp F O L.
    apply fit_instead in F as ([[k' w] tr] & gs' & E & F & ->); [|intros ->; apply W1; cbn; tauto].
    cbn [fst snd] in E. subst k'. fitz. apply off_not in W2. apply off_not in W1 as W4. offs. go pattern_body.
    apply r_instead; cbn [fst snd].
    - intros ->. apply W3. constructor. cbn. tauto.
    - intros ->. apply W3. constructor. cbn. tauto.
    - intros ->. apply W1. cbn. tauto.
    - rewrite ts_has_spec. apply off_not. intros X. apply W3. constructor. cbn in *. tauto.
    - intros l'. done_.
  Qed.
  Lemma b_field_pats_nil : z_field_pats t [].
  Proof. intros gs rest l kids stk sp. init. go record_pat_fields_body. done_. Qed.
  Lemma b_field_pats_last e : starts [IDENT; MUT_KW] [e] -> z_field_pat t [e] -> z_field_pats t [e].
  Proof.
    intros S1 HE gs rest l kids stk sp. init. first_off [R_BRACE; EOF; DOT; L_BRACE]. go record_pat_fields_body. use HE. st.
    go record_pat_fields_body. done_.
  Qed.
  Lemma b_field_pats_more e r : starts [IDENT; MUT_KW] [e] -> z_field_pat t [e] -> z_field_pats t r ->
    z_field_pats t (e :: TTok COMMA :: r).
  Proof.
    intros S1 HE HR gs rest l kids stk sp. init. first_off [R_BRACE; EOF; DOT; L_BRACE]. go record_pat_fields_body. use HE. st. use HR. done_.
  Qed.

  Lemma b_patterns_nil : z_patterns t [].
  Proof.
    intros gs rest l kids stk sp c p. init. go tuple_pat_body. cbn [length Nat.ltb Nat.leb]. rewrite !orb_false_r.
    split; [reflexivity|]. done_.
  Qed.
  Lemma b_patterns_last e : starts H_pat [e] -> z_pattern t [e] -> z_patterns t [e].
  Proof.
    intros S1 HE gs rest l kids stk sp c p. init. first_off [R_PAREN; EOF; DOTDOT].
    pose proof (ts_pat _ (first_in _ _ _ rest S1 (proj1 H) ltac:(cbn; intuition discriminate))) as T.
    go tuple_pat_body. rewrite T. kev. st. cbv zeta. unfold pattern. st. use HE. st. go tuple_pat_body.
    cbn [length Nat.ltb Nat.leb]. rewrite orb_true_r, !orb_false_r. split; [reflexivity|]. done_.
  Qed.
  Lemma b_patterns_more e r : starts H_pat [e] -> z_pattern t [e] -> z_patterns t r -> z_patterns t (e :: TTok COMMA :: r).
  Proof.
    intros S1 HE HR gs rest l kids stk sp c p. init. first_off [R_PAREN; EOF; DOTDOT].
    match goal with F : fit [e] ?g ?r |- _ =>
      pose proof (ts_pat _ (first_in _ _ _ r S1 (proj1 F) ltac:(cbn; intuition discriminate))) as T end.
    go tuple_pat_body. rewrite T. kev. st. cbv zeta. unfold pattern. st. use HE. st.
    eapply tw_mono; [apply HR; [assumption|assumption|wl]|]. intros a st' (-> & l0' & sp0 & -> & B).
    cbn [length Nat.ltb Nat.leb]. rewrite !orb_true_r, !orb_true_l. split; [reflexivity|]. done_.
  Qed.
  Lemma b_pat_tuple ps : z_patterns t ps ->
    z_pattern t [TNode (if Nat.eqb (length ps) 1 then PAREN_PAT else TUPLE_PAT) (TTok L_PAREN :: ps ++ [TTok R_PAREN])].
  Proof.
    intros HP gs rest l kids stk sp F O L. apply fit_one in F; [|destruct (Nat.eqb _ _); discriminate]. init. go pattern_body. unfold tuple_pat. st.
    eapply tw_mono; [apply HP; [assumption|reflexivity|wl]|]. intros a st' (-> & l0' & sp0 & -> & B). st.
    assert (E : (if negb (false || Nat.ltb 1 (length ps)) && negb false && (false || Nat.ltb 0 (length ps)) then PAREN_PAT else TUPLE_PAT)
      = if Nat.eqb (length ps) 1 then PAREN_PAT else TUPLE_PAT).
    { destruct ps as [|? [|? ?]]; reflexivity. }
    rewrite E. apply r_complete; [destruct (Nat.eqb _ _); discriminate|]. intros c. cbn [opt_tree app]. st. done_.
  Qed.

  (** *** Expressions *)
  Lemma b_literal k : In k [TRUE_KW; FALSE_KW; INTEGER_NUMBER; BYTE_STRING; HEX_STRING] -> z_atom t [TNode LITERAL [TTok k]].
  Proof.
    cbn [In]. intros [<- |[<- |[<- |[<- |[<- |[]]]]]] gs rest l kids stk sp; init; unfold atom_expr; st; unfold literal; st;
      (eexists; split; [reflexivity|donec]).
  Qed.
  Lemma b_address_lit a : z_address_name [a] -> z_atom t [TNode LITERAL [TNode ADDRESS_LIT [TTok ATSIGN; a]]].
  Proof.
    intros HA gs rest l kids stk sp. pose proof (address_weight a HA). init. unfold atom_expr. st. unfold literal. st. unfold address_lit. st.
    eapply r_address_name; [exact HA|eassumption|wl|]. intros ? ? ?. st. eexists. split; [reflexivity|]. donec.
  Qed.
  Lemma b_address_lit_gap js : junk [IDENT; INTEGER_NUMBER] m_address_lit js ->
    z_atom t [TNode LITERAL [TNode ADDRESS_LIT [TTok ATSIGN; skipped m_address_lit js]]].
  Proof.
    intros J gs rest l kids stk sp F O L. apply fit_one in F; [|discriminate]. apply fit_one in F; [|discriminate].
    apply fit_tok in F as ([[k w] tr] & gs1 & K & F & ->). cbn in K. subst k.
    apply fit_skipped in F as (g1 & g2 & F1 & G & F2 & ->); [|reflexivity|].
    2:{ eapply Forall_impl; [|exact (proj2 J)]. cbn. tauto. }
    apply fit_nil_inv in F2. subst g2. rewrite app_nil_r. cbn [app] in *. apply g_address_lit in G.
    pose proof (no_address js g1 rest _ J F1 (in_off _ _ [IDENT; INTEGER_NUMBER] G eq_refl)). clear O. offs.
    unfold atom_expr. st. unfold literal. st. unfold address_lit. st. unfold bump_address. st.
    eapply r_skipped; [exact F1| | |].
    - eapply Forall_impl; [|exact (proj2 J)]. clear. intros k [N _]. apply ts_not. intros X. apply N. constructor. cbn in *. tauto.
    - clear - G. apply ts_yes. cbn in *. tauto.
    - intros ?. st. eexists. split; [reflexivity|]. unfold skipped in *. donec.
  Qed.
  Lemma b_path_expr p : starts [IDENT] [p] -> z_path t [p] -> z_atom t [TNode PATH_EXPR [p]].
  Proof.
    intros S1 HP gs rest l kids stk sp F O. apply nf_brace in O; [|reflexivity]. init. first_is. unfold atom_expr. st. unfold literal. st.
    unfold path_expr. st. unfold is_path_start. st. unfold expr_path.
    eapply r_path; [exact HP|assumption|fol|wl|]. intros ? ? ?. st. eexists. split; [reflexivity|]. donec.
  Qed.
  Lemma b_record p fs : starts [IDENT] [p] -> z_path t [p] -> z_inits t fs ->
    z_atom t [TNode RECORD_EXPR [p; TNode RECORD_EXPR_FIELD_LIST (TTok L_BRACE :: fs ++ [TTok R_BRACE])]].
  Proof.
    intros S1 HP HF gs rest l kids stk sp. init. first_is. unfold atom_expr. st. unfold literal. st.
    unfold path_expr. st. unfold is_path_start. st. unfold expr_path.
    eapply r_path; [exact HP|assumption|fol|wl|]. intros ? ? ?. st. unfold record_expr_field_list. st. use HF. st.
    eexists. split; [reflexivity|]. donec.
  Qed.
  Lemma b_block_expr b : starts [L_BRACE] [b] -> z_block t [b] -> z_atom t [b].
  Proof.
    intros S1 HB gs rest l kids stk sp. init. first_is. unfold atom_expr. st. unfold literal. st.
    eapply use_block; [exact HB|eassumption|wl|]. intros ? ? ?. st. eexists. split; [reflexivity|]. donec.
  Qed.

  Lemma loop_stop bp c st (Q : _ -> tst -> Prop) : 1 <= bp -> (forall q, prec (gcur (s_toks st)) = Some q -> q < bp) ->
    Q (Some c) st -> tw (call (F_expr_bp_loop bp c)) st Q.
  Proof.
    intros L H HQ. tcall. cbn [body]. unfold expr_bp_loop_body, current_op. st1. st1. destruct st as [gs l ks stk sp].
    cbn [s_toks] in *. st. rewrite op_prec. cbv zeta.
    destruct (prec (gcur gs)) as [q|] eqn:E; cbn [fst snd].
    - specialize (H _ eq_refl). destruct (q <? bp) eqn:X; [|wl]. st. exact HQ.
    - destruct (0 <? bp) eqn:X; [|wl]. st. exact HQ.
  Qed.

  (** a whole expression *)
  Lemma r_expr_open e gs rest l kids stk sp (Q : _ -> tst -> Prop) : z_expr t 1 [e] -> fit [e] gs rest -> ender e (gcur rest) ->
    sp + 5 * weight [e] + 10 <= 10000 ->
    (forall c sp', sp' <= sp + 5 * weight [e] -> Q (Some c) (TS rest (Some c) (kids ++ [e]) stk sp')) ->
    tw expr (TS (gs ++ rest) l kids stk sp) Q.
  Proof.
    intros HE F N L HQ. destruct (ender_parts _ _ N) as (O & B0 & P). unfold expr.
    apply (HE 1); [wl|wl|exact F|exact O|exact B0|intros q E; congruence|exact L|]. intros c sp' B.
    apply loop_stop; [wl|cbn [s_toks]; congruence|]. apply HQ. exact B.
  Qed.
  Lemma r_expr e gs rest l kids stk sp (Q : _ -> tst -> Prop) : z_expr t 1 [e] -> fit [e] gs rest -> zends (gcur rest) ->
    sp + 5 * weight [e] + 10 <= 10000 ->
    (forall c sp', sp' <= sp + 5 * weight [e] -> Q (Some c) (TS rest (Some c) (kids ++ [e]) stk sp')) ->
    tw expr (TS (gs ++ rest) l kids stk sp) Q.
  Proof. intros HE F N. apply r_expr_open; auto. apply zends_ender. exact N. Qed.
  Ltac useexpr H := eapply r_expr; [exact H|eassumption|zendk|wl|intros ? ? ?; cbv beta].

  (** what comes behind a phrase that nothing separates from the next one *)
  Lemma behind_open (P : kind -> Prop) ks f gs rest : f = [] \/ starts ks f -> ~ In DIEM_ADDRESS ks -> fit f gs rest -> parted P f ->
    ~ P (gcur rest) -> ~ P (gcur (gs ++ rest)).
  Proof.
    intros S N [F _] T O. unfold fits in F. destruct (flat_map leaves f) as [|k r] eqn:E.
    - inversion F; subst. exact O.
    - destruct S as [-> |(k' & r' & E' & K)]; [discriminate E|]. rewrite E in E'. injection E' as <- <-.
      specialize (T _ _ E). inversion F as [|? g ? gs' S F']; subst. cbn [app gcur].
      assert (X : fst (fst g) = k) by (destruct k; try exact S; contradiction). rewrite X. exact T.
  Qed.

  Lemma b_parens_nil : z_parens t [].
  Proof. intros gs rest l kids stk sp. init. go paren_body. done_. Qed.
  Lemma b_parens e es : starts H_expr [e] -> z_expr t 1 [e] -> es = [] \/ starts H_expr es -> parted (takes e) es -> z_parens t es ->
    z_parens t (e :: es).
  Proof.
    intros S1 HE S2 PT HS gs rest l kids stk sp F C L. cbn [length] in *. rewrite Nat2N.inj_succ in *. apply fit_cons in F as (g1 & g2 & F1 & F2 & ->). rewrite <- app_assoc.
    assert (X : ender e (gcur (g2 ++ rest))).
    { split.
      - apply (list_off H_expr es g2 rest S2 (proj1 F2)); [cbn; intuition discriminate|reflexivity|rewrite C; reflexivity].
      - eapply behind_open; [exact S2|cbn; intuition discriminate|exact F2|exact PT|]. rewrite C.
        apply (zends_ender e R_PAREN). reflexivity. }
    first_off [EOF; R_PAREN]. go paren_body. eapply r_expr_open; [exact HE|exact F1|exact X|wl|]. intros ? ? ?. st.
    eapply tw_mono; [apply HS; [exact F2|exact C|wl]|]. intros a st' (-> & l' & sp0 & -> & B). split; [reflexivity|]. done_.
  Qed.
  Lemma b_paren es : z_parens t es -> z_atom t [TNode PAREN_EXPR (TTok L_PAREN :: es ++ [TTok R_PAREN])].
  Proof.
    intros HS gs rest l kids stk sp. init. rewrite !weight_cons, !weight_node in *. cbn [unseparated length] in *. rewrite app_length in *.
    cbn [length] in *. unfold atom_expr. st. unfold literal. st. unfold paren_expr. st.
    eapply tw_mono; [apply HS; [eassumption|reflexivity|wl]|]. intros a st' (-> & l' & sp0 & -> & B). st.
    eexists. split; [reflexivity|]. donec.
  Qed.

  Lemma b_args_nil : z_args t [].
  Proof. intros gs rest l kids stk sp. init. go args_body. done_. Qed.
  Lemma b_args_last e : starts H_expr [e] -> z_expr t 1 [e] -> z_args t [e].
  Proof.
    intros S1 HE gs rest l kids stk sp. init. first_off [EOF; R_PAREN]. go args_body. useexpr HE. st. go args_body. done_.
  Qed.
  Lemma b_args_more e r : starts H_expr [e] -> z_expr t 1 [e] -> z_args t r -> z_args t (e :: TTok COMMA :: r).
  Proof.
    intros S1 HE HR gs rest l kids stk sp. init. first_off [EOF; R_PAREN]. go args_body. useexpr HE. st. use HR. done_.
  Qed.

  Lemma b_postfix_atom e : z_atom t [e] -> z_postfix t [e].
  Proof.
    intros HE gs rest l kids stk sp Q F O L HQ. eapply tw_mono; [apply HE; assumption|].
    intros a st' (c & -> & sp' & -> & B). apply HQ. wl.
  Qed.
  Lemma b_call e args : z_postfix t [e] -> z_args t args ->
    z_postfix t [TNode CALL_EXPR [e; TNode ARG_LIST (TTok L_PAREN :: args ++ [TTok R_PAREN])]].
  Proof.
    intros HE HA gs rest l kids stk sp Q. init. eapply HE; [eassumption|fol|wl|]. intros c sp' B. go postfix_body.
    unfold call_expr. st. apply r_precede. intros m. st. unfold arg_list. st. use HA. st.
    match goal with H : forall _ _, _ -> tw _ _ _ |- _ => apply H end. wl.
  Qed.
  Lemma b_dot e : z_postfix t [e] -> z_postfix t [TNode DOT_EXPR [e; TTok DOT; name_ref_node]].
  Proof.
    intros HE gs rest l kids stk sp Q. init. eapply HE; [eassumption|fol|wl|]. intros c sp' B. go postfix_body.
    unfold field_expr. st. apply r_precede. intros m. st.
    match goal with H : forall _ _, _ -> tw _ _ _ |- _ => apply H end. wl.
  Qed.

  Lemma b_dot_gap e : z_postfix t [e] -> z_postfix t [TNode DOT_EXPR [e; TTok DOT; TErr m_field]].
  Proof.
    intros HE gs rest l kids stk sp Q. init.
    match goal with H : goes_on _ _ |- _ => apply g_field in H; apply off_not in H; offs end.
    eapply HE; [eassumption|fol|wl|]. intros c sp' B. go postfix_body.
    unfold field_expr. st. apply r_precede. intros m. st.
    match goal with H : forall _ _, _ -> tw _ _ _ |- _ => apply H end. wl.
  Qed.
  Lemma b_unary_postfix e : starts H_atom [e] -> z_postfix t [e] -> z_unary t [e].
  Proof.
    intros S1 HE bp gs rest l kids stk sp Q. init. first_off [STAR; BANG; MINUS]. tcall. cbn [body]. unfold expr_bp_body. st.
    unfold lhs_. st.
    eapply tw_mono; [apply HE with (Q := fun c st => exists sp', st = TS rest (Some c) (kids ++ [e]) stk sp' /\ sp' <= sp + 5 * weight [e]);
      [assumption|fol|wl|]|].
    - intros c sp' B. go postfix_body. exists sp'. auto.
    - intros [c|] st' X; [|contradiction]. st. eapply tw_mono; [exact X|]. intros d st2 (sp' & -> & B). st.
      match goal with H : forall _ _, _ -> tw _ _ _ |- _ => apply H end. wl.
  Qed.
  Lemma b_unary op u : In op [STAR; BANG; MINUS] -> z_unary t [u] -> z_unary t [TNode PREFIX_EXPR [TTok op; u]].
  Proof.
    intros Ho HU bp gs rest l kids stk sp Q.
    cbn [In] in Ho. destruct Ho as [<- |[<- |[<- |[]]]]; init; tcall; cbn [body]; unfold expr_bp_body; st; unfold lhs_; st;
      (eapply (HU 255); [eassumption|fol|eapply nf_sub; [|eassumption]; cbn; auto|exact I|wl|]; intros c sp' B;
       apply loop_stop; [wl|intros q E; apply prec_pos in E; wl|]; st;
       match goal with H : forall _ _, _ -> tw _ _ _ |- _ => apply H end; wl).
  Qed.

  Lemma b_expr_unary p u : z_unary t [u] -> z_expr t p [u].
  Proof. intros HU bp L1 L2 gs rest l kids stk sp Q F O NF W L HQ. apply (HU bp); auto. exact I. Qed.
  Lemma b_expr_bin p q le op r : prec op = Some q -> p <= q -> z_expr t q [le] -> z_expr t (q + 1) [r] ->
    z_expr t p [TNode BIN_EXPR [le; TTok op; r]].
  Proof.
    intros P Lq HL HR bp L1 L2 gs rest l kids stk sp Q F O NF W L HQ.
    assert (G : exists g1 g2 w tr, gs = g1 ++ (op, w, tr) :: g2 /\ fit [le] g1 ((op, w, tr) :: g2 ++ rest) /\ fit [r] g2 rest).
    { apply fit_one in F; [|discriminate]. apply fit_cons in F as (g1 & g2 & F1 & F2 & ->).
      apply fit_tok in F2 as ([[k w] tr] & g3 & S & F3 & ->).
      assert (k = op) by (destruct op; try discriminate P; exact S). subst k. exists g1, g3, w, tr. auto. }
    destruct G as (g1 & g2 & w & tr & -> & F1 & F2). rewrite weight_cons, weight_node, !weight_cons in *. cbn [weight1] in *.
    rewrite <- app_assoc. cbn [app].
    destruct (prec_pos _ _ P) as [P1 P2].
    assert (X : off [L_PAREN; DOT] op) by (destruct op; try discriminate P; reflexivity).
    assert (Y : no_fields [le] op) by (apply nf_off; destruct op; try discriminate P; reflexivity).
    apply (HL bp); [lia|lia|exact F1|exact X|exact Y|unfold weak; cbn [gcur fst]; intros q' E; rewrite P in E; injection E as ->; lia|wl|]. intros c sp' B.
    tcall. cbn [body]. unfold expr_bp_loop_body, current_op. st. rewrite op_prec, P. cbv zeta. cbn [fst snd].
    destruct (q <? bp) eqn:Z; [lia|]. st. apply r_precede. intros m. st.
    apply r_bump; [wl|cbn [fst]; apply kind_eqb_refl|]. cbv beta. st.
    apply (HR (q + 1)); [lia|lia|exact F2|exact O|eapply nf_sub; [|exact NF]; cbn; auto|intros q' E; specialize (W _ E); lia|wl|]. intros d sp'' B'.
    apply loop_stop; [lia|cbn [s_toks]; intros q' E; specialize (W _ E); lia|]. st. apply HQ. wl.
  Qed.

  (** no expression *)
  Lemma b_hole js : junk expr_first m_expr js -> z_unary t [skipped m_expr js].
  Proof.
    intros J bp gs rest l kids stk sp Q F O _ _ L HQ.
    apply fit_skipped in F as (g1 & g2 & F1 & G & F2 & ->); [|reflexivity|].
    2:{ eapply Forall_impl; [|exact (proj2 J)]. cbn. tauto. }
    apply fit_nil_inv in F2. subst g2. rewrite app_nil_r. cbn [app] in *. apply g_expr in G.
    assert (X : off expr_first (gcur (g1 ++ rest))).
    { destruct J as [J _]. destruct F1 as [|k g js gs E F1]; [exact (in_off _ _ expr_first G eq_refl)|]. cbn [app gcur]. rewrite E. apply off_not.
      eapply J. reflexivity. }
    assert (T : ts_has LITERAL_FIRST (gcur (g1 ++ rest)) = false).
    { clear - X. apply ts_not. intros Y. apply off_in in X. apply X. unfold expr_first. cbn in *. tauto. }
    unfold expr_first in X. offs. tcall. cbn [body]. unfold expr_bp_body. st. unfold lhs_. st. unfold atom_expr. st. unfold literal. st.
    rewrite T. st. eapply r_skipped; [exact F1| | |].
    - eapply Forall_impl; [|exact (proj2 J)]. clear. intros k [N _]. apply ts_not. intros Y. apply N. constructor. cbn in *. tauto.
    - clear - G. apply ts_yes. cbn in *. tauto.
    - intros ?. st. go postfix_body. apply HQ. unfold skipped. wl.
  Qed.

  Lemma b_inits_nil : z_inits t [].
  Proof. intros gs rest l kids stk sp. init. go record_expr_fields_body. done_. Qed.
  Lemma init_short e gs rest : begins [IDENT; INTEGER_NUMBER] e -> (forall k k' r, leaves e = k :: k' :: r -> k' <> COLON) ->
    fit [e] gs rest -> kind_eqb (gcur rest) COLON = false ->
    exists g gs', gs = g :: gs' /\ (fst (fst g) = IDENT \/ fst (fst g) = INTEGER_NUMBER) /\ kind_eqb (gcur (gs' ++ rest)) COLON = false.
  Proof.
    intros (k & r & E & K) H [F _] C. unfold fits in F. cbn [flat_map] in F. rewrite app_nil_r, E in F.
    inversion F as [|? g ? gs' S F']; subst. exists g, gs'. split; [reflexivity|]. split.
    - apply token_kind_stands in S. rewrite S. destruct K as [<- |[<- |[]]]; cbn; auto.
    - destruct F' as [|k' g' r gs' S' F']; [exact C|]. cbn [app gcur]. apply token_kind_stands in S'. rewrite S'.
      apply kind_eqb_neq. intros X. apply (H _ _ _ E). destruct k'; try discriminate X. reflexivity.
  Qed.
  Lemma b_inits_last e : z_field_init t [e] -> z_inits t [e].
  Proof.
    intros [(x & E & HE & B & C)|(x & E & HE)] gs rest l kids stk sp; injection E as ->.
    - intros F N L. apply fit_one in F; [|discriminate].
      destruct (init_short x gs rest B C F) as ([[k w] tr] & gs' & -> & K & O); [rewrite <- N; reflexivity|]. cbn [fst snd] in K.
      cbn [app]. offs. destruct K as [-> | ->]; go record_expr_fields_body; unfold nth_at; st; (apply r_nth1; [wl|auto|]); intros y Hy; st;
        rewrite (Hy COLON ltac:(unfold opens; tauto)); kev; st;
        match goal with |- ParserTotal.tw _ _ (TS (?g :: ?a ++ ?r) _ _ _ _) _ => change (g :: a ++ r) with ((g :: a) ++ r) end;
        (eapply r_expr; [exact HE|exact F|zendk|wl|]); intros c sp' B'; st; go record_expr_fields_body; done_.
    - init. go record_expr_fields_body. unfold nth_at. st. apply r_nth1; [wl|left; reflexivity|]. intros y Hy. st.
      rewrite (Hy COLON ltac:(unfold opens; tauto)). kev. st. useexpr HE. st. go record_expr_fields_body. done_.
  Qed.
  Lemma b_inits_more e r : z_field_init t [e] -> z_inits t r -> z_inits t (e :: TTok COMMA :: r).
  Proof.
    intros [(x & E & HE & B & C)|(x & E & HE)] HR gs rest l kids stk sp; injection E as ->.
    - intros F N L. apply fit_cons in F as (g1 & g2 & F & F2 & ->). apply fit_one in F; [|discriminate].
      apply fit_tok in F2 as ([[k2 w2] tr2] & gs2 & K2 & F2 & ->). cbn in K2. subst k2. rewrite <- app_assoc. cbn [app] in *.
      destruct (init_short x g1 _ B C F) as ([[k w] tr] & gs' & -> & K & O); [reflexivity|]. cbn [fst snd] in K.
      cbn [app]. destruct K as [-> | ->]; go record_expr_fields_body; unfold nth_at; st; (apply r_nth1; [wl|auto|]); intros y Hy; st;
        rewrite (Hy COLON ltac:(unfold opens; tauto)); kev; st;
        match goal with |- ParserTotal.tw _ _ (TS (?g :: ?a ++ ?r) _ _ _ _) _ => change (g :: a ++ r) with ((g :: a) ++ r) end;
        (eapply r_expr; [exact HE|exact F|zendk|wl|]); intros c sp' B'; st; use HR; done_.
    - init. go record_expr_fields_body. unfold nth_at. st. apply r_nth1; [wl|left; reflexivity|]. intros y Hy. st.
      rewrite (Hy COLON ltac:(unfold opens; tauto)). kev. st. useexpr HE. st. use HR. done_.
  Qed.

  (** *** Statements *)
  Lemma b_stmts_nil : z_stmts t [].
  Proof. intros gs rest l kids stk sp F [C|C]; init; go block_contents_body; done_. Qed.
  Lemma b_stmts_expr e ss : starts H_expr [e] -> z_expr t 1 [e] -> z_stmts t ss ->
    z_stmts t (TNode EXPR_STMT [e; TTok SEMICOLON] :: ss).
  Proof.
    intros S1 HE HS. unfold z_stmts. change (joints (_ :: ss)) with (joints ss). intros gs rest l kids stk sp. init.
    first_off [R_BRACE; EOF; LET_KW]. go block_contents_body. unfold stmt. st.
    useexpr HE. st. unfold stmt_semi. st. use HS. done_.
  Qed.
  Lemma b_stmts_semi ss : z_stmts t ss -> z_stmts t (TNode EXPR_STMT [skipped m_expr []; TTok SEMICOLON] :: ss).
  Proof.
    intros HS. unfold z_stmts. change (joints (_ :: ss)) with (joints ss).
    intros gs rest l kids stk sp F C L. apply fit_node in F as (g1 & g2 & F1 & F2 & ->); [|discriminate].
    apply fit_skipped in F1 as (g3 & g4 & F0 & G & F1 & ->); [|reflexivity|constructor]. inversion F0; subst. fitz. cbn [app] in *.
    go block_contents_body. unfold stmt. st. unfold expr.
    assert (HE : z_expr t 1 [skipped m_expr []]).
    { intros bp _ _ gs rest' l' kids' stk' sp' Q F O NF W. apply b_hole; auto; [|exact I]. split; [discriminate|constructor]. }
    match goal with |- ParserTotal.tw _ _ (TS ?r _ _ _ _) _ => change r with ([] ++ r) end.
    eapply r_expr; [exact HE|split; [constructor|]|zendk|wl|].
    { cbn [flat_map skipped map row skips app recovers]. split; [exact G|exact I]. }
    intros ? ? ?. st. unfold stmt_semi. st. use HS. done_.
  Qed.
  (** what a list of statements begins with *)
  Definition H_stmts := LET_KW :: SEMICOLON :: H_expr.
  (** what follows a statement without a semicolon *)
  Lemma stmts_next (P : kind -> Prop) ss gs rest : ss = [] \/ starts H_stmts ss -> fit ss gs rest -> closes (gcur rest) ->
    parted P ss -> ~ P R_BRACE -> ~ P EOF -> ~ P (gcur (gs ++ rest)) /\ off [EQ; COLON; COLON_COLON] (gcur (gs ++ rest)).
  Proof.
    intros S F C PT N1 N2. split.
    - eapply behind_open; [exact S|cbn; intuition discriminate|exact F|exact PT|]. destruct C as [-> | ->]; assumption.
    - apply (list_off H_stmts ss gs rest S (proj1 F)); [cbn; intuition discriminate|reflexivity|]. destruct C as [-> | ->]; reflexivity.
  Qed.
  Lemma not_taken e k : k = R_BRACE \/ k = EOF -> ~ (k = SEMICOLON \/ takes e k).
  Proof.
    intros K [X|X]; [destruct K; subst; discriminate|]. apply (zends_ender e k); [|exact X]. destruct K; subst; reflexivity.
  Qed.
  Definition nodes (ss : list tree) : Prop := ss = [] \/ exists k cs r, ss = TNode k cs :: r.
  Lemma b_stmts_open e ss : starts H_expr [e] -> z_expr t 1 [e] -> ss = [] \/ starts H_stmts ss -> nodes ss ->
    parted (fun k => k = SEMICOLON \/ takes e k) ss -> z_stmts t ss -> z_stmts t (TNode EXPR_STMT [e] :: ss).
  Proof.
    intros S1 HE S2 ND PT HS gs rest l kids stk sp F C L. apply fit_node in F as (g1 & g2 & F1 & F2 & ->); [|discriminate].
    destruct (stmts_next _ _ _ _ S2 F2 C PT) as [N O]; [apply not_taken; auto..|].
    assert (X : ender e (gcur (g2 ++ rest))) by (split; [unfold off in *; cbn [existsb] in *; destruct (kind_eqb _ COLON_COLON); [rewrite !orb_true_r in O; discriminate|reflexivity]|tauto]).
    assert (Y : kind_eqb (gcur (g2 ++ rest)) SEMICOLON = false) by (apply kind_eqb_neq; tauto).
    rewrite <- app_assoc. first_off [R_BRACE; EOF; LET_KW]. go block_contents_body. unfold stmt. st.
    eapply r_expr_open; [exact HE|exact F1|exact X|wl|]. intros ? ? ?. st. unfold stmt_semi. st.
    destruct ND as [-> |(k & cs & r & ->)].
    - apply fit_nil_inv in F2. subst g2. cbn [app] in *. destruct C as [C|C]; go block_contents_body; done_.
    - change (joints (TNode EXPR_STMT [e] :: TNode k cs :: r)) with (S (joints (TNode k cs :: r))) in *. use HS. done_.
  Qed.
  Lemma b_stmts_let lt ss : z_let t lt -> z_stmts t ss -> z_stmts t (TNode LET_STMT (lt ++ [TTok SEMICOLON]) :: ss).
  Proof.
    intros HL HS. unfold z_stmts.
    assert (J : joints (TNode LET_STMT (lt ++ [TTok SEMICOLON]) :: ss) = joints ss).
    { cbn [joints unended]. rewrite existsb_app. cbn [existsb]. rewrite orb_true_r. reflexivity. }
    rewrite J. clear J. destruct HL as (p & a & i & -> & HP & HA & HI). intros gs rest l kids stk sp.
    destruct HA as [-> | (ty & -> & HT)]; destruct HI as [-> | (e & -> & HE)]; cbn [app]; init;
      go block_contents_body; unfold stmt; st; unfold let_stmt; st; unfold pattern; use HP; st;
      try (unfold ascription; st; unfold type_; use HT; st); try (useexpr HE; st); unfold stmt_semi; st; use HS; done_.
  Qed.
  Lemma b_stmts_let_open lt ss : z_let t lt -> unended (TNode LET_STMT lt) = true -> ss = [] \/ starts H_stmts ss -> nodes ss ->
    parted (fun k => k = SEMICOLON \/ let_takes true lt k) ss -> z_stmts t ss -> z_stmts t (TNode LET_STMT lt :: ss).
  Proof.
    intros HL U S2 ND PT HS gs rest l kids stk sp F C L. apply fit_node in F as (g1 & g2 & F1 & F2 & ->); [|discriminate].
    assert (NK : forall k, k = R_BRACE \/ k = EOF -> ~ (k = SEMICOLON \/ let_takes true lt k)).
    { intros k K [X|[(l' & e & _ & X)|(_ & _ & X)]]; [destruct K; subst; discriminate| |destruct K; subst; discriminate].
      apply (not_taken e k K). auto. }
    destruct (stmts_next _ _ _ _ S2 F2 C PT) as [N O]; [apply NK; auto..|]. clear NK PT.
    assert (Y : kind_eqb (gcur (g2 ++ rest)) SEMICOLON = false) by (apply kind_eqb_neq; tauto).
    assert (J : ss = [] /\ joints (TNode LET_STMT lt :: ss) = joints ss \/ joints (TNode LET_STMT lt :: ss) = S (joints ss)).
    { destruct ND as [-> |(k & cs & r & ->)]; [left|right]; cbn [joints]; rewrite U; auto. }
    assert (HS' : forall l kids sp, sp + 5 * weight ss + 5 * N.of_nat (joints (TNode LET_STMT lt :: ss)) + 14 <= 10005 ->
      tw (call F_block_contents) (TS (g2 ++ rest) l kids stk sp)
        (fin rest kids ss stk 0 (sp + 5 * weight ss + 5 * N.of_nat (joints (TNode LET_STMT lt :: ss)) + 2))).
    { clear - F2 C J HS S2. intros l kids sp L. destruct J as [[-> J]|J].
      - apply fit_nil_inv in F2. subst g2. cbn [app] in *. cbn [joints] in *. rewrite J in *. destruct C as [C|C]; go block_contents_body; done_.
      - rewrite J in *. use HS. done_. }
    clear HS J U. destruct HL as (p & a & i & -> & HP & HA & HI). rewrite <- app_assoc.
    assert (PB : a ++ i = [] -> [p] = [TNode IDENT_PAT [name_node]] -> off [L_BRACE] (gcur (g2 ++ rest))).
    { intros E Ep. injection Ep as ->. rewrite E in N. apply off_not. intros [X|[]]. apply N. right. right. auto. }
    assert (EX : forall e, i = [TTok EQ; e] -> ender e (gcur (g2 ++ rest))).
    { intros e ->. split.
      - unfold off in *; cbn [existsb] in *; destruct (kind_eqb _ COLON_COLON); [rewrite !orb_true_r in O; discriminate|reflexivity].
      - intros X. apply N. right. left. exists (TTok LET_KW :: p :: a), e. auto. }
    offs. clear N.
    destruct HA as [-> | (ty & -> & HT)]; destruct HI as [-> | (e & -> & HE)]; cbn [app] in *; fitz;
      repeat (progress (rewrite <- ?app_assoc; cbn [app]));
      go block_contents_body; unfold stmt; st; unfold let_stmt; st; unfold pattern; use HP;
      try (apply PB; reflexivity); st;
      try (unfold ascription; st; unfold type_; use HT; st);
      try (eapply r_expr_open; [exact HE|eassumption|apply EX; reflexivity|wl|intros ? ? ?; cbv beta]; st); unfold stmt_semi; st;
      (eapply tw_mono; [apply HS'; wl|]; intros ? ? (? & ? & -> & ?); done_).
  Qed.
End Text.

(** ** Every phrase *)
Definition beginning (x : place) (f : list tree) : Prop :=
  match x with
  | Core Items => f = [] \/ starts H_item f
  | Core Stmts => (f = [] \/ starts H_stmts f) /\ nodes f
  | Core FieldPat => starts [IDENT; MUT_KW] f
  | Parens => f = [] \/ starts H_expr f
  | Core x => heads x <> [] -> starts (heads x) f
  | _ => True
  end.
Lemma gap_starts x f : gap x f -> beginning x f.
Proof.
  induction 1; cbn [beginning heads] in *; try exact I; try (intros X; exfalso; apply X; reflexivity);
    try (intros _; match goal with
    | |- starts _ [TNode _ (TTok ?k :: _)] => exists k; eexists; split; [reflexivity|cbn; tauto]
    | |- starts _ [TNode _ [TNode _ (TTok ?k :: _)]] => exists k; eexists; split; [reflexivity|cbn; tauto]
    end).
  all: try (intros _; first
    [ assumption
    | apply IHgap; discriminate
    | apply starts_node; apply IHgap; discriminate
    | apply starts_node; apply IHgap1; discriminate
    | eexists _, _; split; [reflexivity|cbn; tauto] ]).
  all: try (left; reflexivity).
  all: try (right; apply starts_cons; apply IHgap1; discriminate).
  all: try (intros _; eapply starts_more; [apply IHgap; discriminate|]; apply incl_appr, incl_refl).
  all: try (intros _; apply starts_node; eapply starts_more; [first [apply IHgap|apply IHgap1]; discriminate|]; intros ? [<- |[]]; cbn; tauto).
  all: try (intros _; eapply starts_more; [apply IHgap; discriminate|]; intros ? [<- |[]]; cbn; tauto).
  all: try (intros _; match goal with H : In ?k _ |- _ => exists k; eexists; split; [reflexivity|]; cbn in *; tauto end).
  all: try (eexists _, _; split; [reflexivity|cbn; tauto]).
  all: try (split; [left; reflexivity|left; reflexivity]).
  all: try (split; [right|right; eauto]; apply starts_cons, starts_node; eapply starts_more; [apply IHgap1; discriminate|];
    intros ? ?; cbn in *; tauto).
  all: try (split; [right|right; eauto]; match goal with H : gap (Core Let_) _ |- _ => inversion H; subst end; eexists _, _; split; [reflexivity|]; cbn; tauto).
  split; [right|right; eauto]. eexists _, _. split; [reflexivity|]. cbn. tauto.
Qed.

Lemma gap_head (x : nt) f : gap x f -> heads x <> [] -> x <> Items -> x <> FieldPat -> starts (heads x) f.
Proof. intros G H N N'. pose proof (gap_starts _ _ G) as S. destruct x; auto; contradiction. Qed.

Lemma zcommas_nil t x : z_commas t x [].
Proof.
  destruct x; try exact I; cbn [z_commas];
    [apply b_fields_nil|apply b_type_params_nil|apply b_params_nil|apply b_patterns_nil|apply b_field_pats_nil
    |intros _; apply b_args_nil|apply b_inits_nil].
Qed.
Lemma zcommas_last t (x : nt) e : gap x [e] -> zstm t x [e] -> z_commas t x [e].
Proof.
  intros G H. destruct x; try exact I; cbn [z_commas zstm] in *;
    try (pose proof (gap_head _ _ G ltac:(discriminate) ltac:(discriminate) ltac:(discriminate)) as S; cbn [heads] in S).
  - apply b_fields_last; assumption.
  - apply b_type_params_last; assumption.
  - apply b_params_last; assumption.
  - apply b_patterns_last; assumption.
  - apply b_field_pats_last; [exact (gap_starts _ _ G)|assumption].
  - intros ->. apply b_args_last; assumption.
  - apply b_inits_last; assumption.
Qed.
Lemma zcommas_more t (x : nt) e r : gap x [e] -> zstm t x [e] -> z_commas t x r -> z_commas t x (e :: TTok COMMA :: r).
Proof.
  intros G H HR. destruct x; try exact I; cbn [z_commas zstm] in *;
    try (pose proof (gap_head _ _ G ltac:(discriminate) ltac:(discriminate) ltac:(discriminate)) as S; cbn [heads] in S).
  - apply b_fields_more; assumption.
  - apply b_type_params_more; assumption.
  - apply b_params_more; assumption.
  - apply b_patterns_more; assumption.
  - apply b_field_pats_more; [exact (gap_starts _ _ G)|assumption..].
  - intros ->. apply b_args_more; auto.
  - apply b_inits_more; assumption.
Qed.
Lemma zcommas_gap t (x : nt) e r : x = Field \/ x = Param -> gap x [e] -> zstm t x [e] -> z_commas t x r ->
  z_commas t x (e :: TErr m_comma :: r).
Proof.
  intros [-> | ->] G H HR; cbn [z_commas zstm] in *;
    pose proof (gap_head _ _ G ltac:(discriminate) ltac:(discriminate) ltac:(discriminate)) as S; cbn [heads] in S.
  - apply b_fields_gap; assumption.
  - apply b_params_gap; assumption.
Qed.

(** only these places are single tokens *)
Lemma gap_token x f : gap x f -> forall k, f = [TTok k] ->
  match x with Core AddressName | AddressOf | Core ModuleBody | Core StructBody | Close | Core (Commas _) => True | _ => False end.
Proof.
  induction 1; intros k0 E; try discriminate E; try exact I; try (eapply IHgap; eassumption);
    inversion E; subst; try discriminate; try (eapply IHgap1; reflexivity).
Qed.
Lemma gap_unended l : gap Let_ l -> unended (TNode LET_STMT l) = true.
Proof.
  assert (X : forall x e, gap x [e] -> match x with Core (Expr _) | TypeOf | PatternOf => True | _ => False end ->
    match e with TTok SEMICOLON => true | _ => false end = false).
  { intros x e G Hx. destruct e as [?|k|?]; try reflexivity. pose proof (gap_token _ _ G k eq_refl) as Y.
    destruct x as [x| | | | | | | | |]; try destruct x; contradiction. }
  intros G.
  assert (Y : exists p a i, l = TTok LET_KW :: p :: a ++ i /\ gap PatternOf [p] /\ gap TypeAnnot a /\ gap Init i) by (inversion G; eauto 8).
  destruct Y as (p & a & i & -> & HP & HA & HI). cbn [unended existsb app]. rewrite existsb_app, (X _ _ HP I). clear G HP.
  assert (A : existsb (fun c => match c with TTok SEMICOLON => true | _ => false end) a = false).
  { inversion HA; subst; [reflexivity|]. cbn [existsb]. rewrite (X TypeOf ty) by (assumption || exact I). reflexivity. }
  assert (B : existsb (fun c => match c with TTok SEMICOLON => true | _ => false end) i = false).
  { inversion HI; subst; [reflexivity| |reflexivity]. cbn [existsb]. rewrite (X (Expr 1) e) by (assumption || exact I). reflexivity. }
  rewrite A, B. reflexivity.
Qed.
(** an expression that begins with a name or a number does not go on with a colon *)
Definition no_colon (ks : list kind) : Prop := forall k k' r, ks = k :: k' :: r -> In k [IDENT; INTEGER_NUMBER] -> k' <> COLON.
Lemma no_colon_app a k b : a <> [] -> k <> COLON -> no_colon a -> no_colon (a ++ k :: b).
Proof.
  intros N K H k1 k2 r E I. destruct a as [|x [|y a]]; [contradiction| |]; cbn [app] in E; injection E as -> -> _; [exact K|].
  apply (H _ _ _ eq_refl I).
Qed.
Lemma no_colon_first k ks : ~ In k [IDENT; INTEGER_NUMBER] -> no_colon (k :: ks).
Proof. intros N ? ? ? E K. injection E as <- _. contradiction. Qed.
Lemma gap_no_colon x f : gap x f -> match x with Core (Expr _) | Core Unary | Core Postfix | Core Atom | Core Path_ => no_colon (flat_map leaves f) | _ => True end.
Proof.
  assert (X : forall (y : nt) e, gap y [e] -> heads y <> [] -> y <> Items -> y <> FieldPat -> leaves e <> []).
  { intros y e G H1 H2 H3 E. destruct (gap_head y [e] G H1 H2 H3) as (k & r & E' & _). cbn [flat_map] in E'. rewrite E in E'. discriminate E'. }
  induction 1; try exact I; try assumption; cbn [flat_map leaves app segment_node name_ref_node] in *; rewrite ?app_nil_r in *;
    try (apply no_colon_app; [eapply X; [eassumption|discriminate..]|first [discriminate|match goal with P : prec ?op = Some _ |- _ => intros ->; discriminate P end]|assumption]);
    try assumption;
    try (apply no_colon_first; match goal with H : In ?op _ |- ~ In ?op _ => cbn [In] in *; intuition (subst; discriminate) | _ => cbn; intuition discriminate end);
    try (intros ? ? ? E; discriminate E).
  - match goal with H : gap (Core Block) _ |- _ => inversion H; subst end. cbn [leaves flat_map app].
    apply no_colon_first. cbn. intuition discriminate.
Qed.
Lemma gap_second p e : gap (Expr p) [e] -> begins [IDENT; INTEGER_NUMBER] e -> forall k k' r, leaves e = k :: k' :: r -> k' <> COLON.
Proof.
  intros G (k0 & r0 & E0 & K0) k k' r E. pose proof (gap_no_colon _ _ G) as H. cbn in H. rewrite app_nil_r in H.
  apply (H _ _ _ E). rewrite E in E0. injection E0 as <- _. exact K0.
Qed.

Lemma gap_stm t x f : gap x f -> pstm t x f.
Proof.
  induction 1; cbn [pstm zstm z_commas] in *;
    repeat match goal with G : gap (Core ?x) [?e] |- _ =>
      match goal with S : starts _ [e] |- _ => fail 1 | _ => idtac end;
      let S := fresh "S" in
      pose proof (gap_head _ _ G ltac:(discriminate) ltac:(discriminate) ltac:(discriminate)) as S; cbn [heads] in S end.
  - apply b_file_nil.
  - apply b_file; assumption.
  - apply b_top_module; assumption.
  - apply b_script; assumption.
  - apply b_script_semi.
  - apply b_script_gap.
  - apply b_address; assumption.
  - left. assumption.
  - right. eauto.
  - right. eauto 6.
  - left. reflexivity.
  - apply b_modules_nil.
  - apply b_modules; assumption.
  - apply b_module; assumption.
  - apply b_module_at; assumption.
  - apply b_module_gap; try assumption. exact (gap_starts _ _ H).
  - right. right. eauto 6.
  - left. reflexivity.
  - right. left. reflexivity.
  - left. reflexivity.
  - right. reflexivity.
  - left. reflexivity.
  - right. reflexivity.
  - apply b_items_nil.
  - apply b_items; try assumption. exact (gap_starts _ _ H0).
  - apply b_items_semi; assumption.
  - assumption.
  - assumption.
  - apply b_name.
  - apply b_name_gap.
  - apply b_name_wrong; assumption.
  - apply b_struct; assumption.
  - right. right. eauto.
  - left. reflexivity.
  - right. left. reflexivity.
  - apply b_field; apply IHgap.
  - left. reflexivity.
  - right. eauto.
  - apply b_type_param.
  - apply b_type_param_bounds; assumption.
  - apply b_bounds_nil.
  - apply b_bounds_one.
  - apply b_bounds_more; assumption.
  - apply b_function; assumption.
  - right. eauto.
  - left. reflexivity.
  - right. eauto.
  - left. reflexivity.
  - apply b_param; apply IHgap.
  - apply b_param_gap.
  - left. reflexivity.
  - right. eexists. split; [reflexivity|]. apply IHgap.
  - apply b_type_of; assumption.
  - apply b_type_gap.
  - apply b_type_wrong; assumption.
  - apply b_type_path; assumption.
  - apply b_type_ref; assumption.
  - apply b_type_ref_mut; apply IHgap.
  - apply b_path_name.
  - apply b_path; assumption.
  - apply b_block; assumption.
  - apply b_stmts_nil.
  - apply b_stmts_expr; assumption.
  - destruct (gap_starts _ _ H1). apply b_stmts_open; assumption.
  - apply b_stmts_let; assumption.
  - destruct (gap_starts _ _ H1). apply b_stmts_let_open; try assumption. apply gap_unended. assumption.
  - apply b_stmts_semi; assumption.
  - exists p, a, i. auto.
  - left. reflexivity.
  - right. eexists. split; [reflexivity|]. apply IHgap.
  - left. reflexivity.
  - right. eauto.
  - right. eexists. split; [reflexivity|]. apply b_expr_unary, b_hole. assumption.
  - assumption.
  - apply b_pattern_gap.
  - apply b_pattern_wrong; assumption.
  - apply b_pat_name.
  - apply b_pat_mut.
  - apply b_pat_wildcard.
  - apply b_pat_record; assumption.
  - apply (b_pat_tuple t [p]). apply b_patterns_last; assumption.
  - pose proof (b_pat_tuple t ps IHgap) as X. apply Nat.eqb_neq in H0. rewrite H0 in X. exact X.
  - apply b_field_pat_short.
  - apply b_field_pat_mut.
  - apply b_field_pat; assumption.
  - apply b_expr_unary; assumption.
  - eapply b_expr_bin; eassumption.
  - eapply b_expr_bin; [eassumption..|]. apply b_expr_unary, b_hole. assumption.
  - apply b_unary; assumption.
  - apply b_unary; [assumption|]. apply b_hole. assumption.
  - apply b_unary_postfix; assumption.
  - apply b_postfix_atom; assumption.
  - apply b_call; auto.
  - apply b_dot; assumption.
  - apply b_dot_gap; assumption.
  - apply b_literal; assumption.
  - apply b_address_lit; assumption.
  - apply b_address_lit_gap; assumption.
  - apply b_path_expr; assumption.
  - apply b_record; assumption.
  - apply b_paren; assumption.
  - apply b_parens_nil.
  - apply b_parens; try assumption. exact (gap_starts _ _ H1).
  - apply b_block_expr; assumption.
  - left. eexists. split; [reflexivity|]. split; [assumption|]. split; [assumption|]. eapply gap_second; eassumption.
  - right. eauto.
  - apply zcommas_nil.
  - apply zcommas_last; assumption.
  - apply zcommas_more; assumption.
  - apply zcommas_gap; assumption.
Qed.

(** finished programs are unfinished programs without missing parts *)
Lemma parted_nil T : parted T [].
Proof. intros k r E. discriminate E. Qed.
Lemma gen_gap x f : gen x f -> gap x f.
Proof.
  induction 1; eauto using gap, parted_nil.
  - apply h_literal. cbn in *. tauto.
  - apply (h_paren [e]). eauto using gap, parted_nil.
  - apply (h_paren []). constructor.
  - apply h_field_init_short; [eauto using gap|]. exists IDENT, []. split; [reflexivity|]. cbn. auto.
Qed.
