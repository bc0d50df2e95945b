(** The grammar functions get through every phrase of the grammar of
    GapSpec.v, with its missing parts, and build its tree. *)
From Coq Require Import String.
From Verif Require Import Base BaseProofs Kinds KindsProofs LexSpec TokenSet Lexer LexerStateProofs
  Parser Grammar GrammarProofs TreeSpec ParserLogic ParserTotal SyntaxSpec LenientSpec AcceptRules AcceptProofs GapSpec GapRules.
Local Open Scope N_scope.

(** *** What comes behind a missing part *)
Lemma in_off k ks xs : In k ks -> forallb (fun k => negb (existsb (kind_eqb k) xs)) ks = true -> off xs k.
Proof. intros H F. rewrite forallb_forall in F. apply F in H. apply negb_true_iff in H. exact H. Qed.
Lemma off_not xs k : ~ In k xs -> off xs k.
Proof.
  intros H. unfold off. destruct (existsb (kind_eqb k) xs) eqn:E; [|reflexivity]. apply existsb_exists in E as (x & Hx & E).
  apply kind_eqb_eq in E. subst x. contradiction.
Qed.
Lemma off_in xs k : off xs k -> ~ In k xs.
Proof.
  intros H Hin. unfold off in H. assert (existsb (kind_eqb k) xs = true); [|congruence].
  apply existsb_exists. exists k. split; [exact Hin|apply kind_eqb_refl].
Qed.

Lemma g_name k : goes_on m_name k -> In k [STRUCT_KW; MODULE_KW; FUN_KW; SEMICOLON; L_BRACE; R_BRACE].
Proof. intros H. inversion H; subst; try discriminate; assumption. Qed.
Lemma g_type k : goes_on m_type k -> In k [R_PAREN; COMMA; L_BRACE; R_BRACE].
Proof. intros H. inversion H; subst; try discriminate; assumption. Qed.
Lemma g_param_type k : goes_on m_param_type k -> In k [R_PAREN; COMMA; IDENT].
Proof. intros H. inversion H; subst; try discriminate; assumption. Qed.
Lemma g_params k : goes_on m_params k -> In k [L_BRACE; COLON; FUN_KW; STRUCT_KW; SEMICOLON; R_BRACE; EOF].
Proof. intros H. inversion H; subst; try discriminate; assumption. Qed.
Lemma g_block k : goes_on m_block k -> In k [FUN_KW; STRUCT_KW; SEMICOLON; R_BRACE; EOF].
Proof. intros H. inversion H; subst; try discriminate; assumption. Qed.
Lemma g_body k : goes_on m_body k -> In k [FUN_KW; STRUCT_KW; R_BRACE; MODULE_KW; SCRIPT_KW; ADDRESS_KW; EOF].
Proof. intros H. inversion H; subst; try discriminate; assumption. Qed.
Lemma g_modules k : goes_on m_modules k -> In k [MODULE_KW; SCRIPT_KW; ADDRESS_KW; EOF].
Proof. intros H. inversion H; subst; try discriminate; assumption. Qed.
Lemma g_pattern k : goes_on m_pattern k -> In k [LET_KW; IF_KW; WHILE_KW; R_PAREN; COMMA; EQ; L_BRACE; R_BRACE].
Proof. intros H. inversion H; subst; try discriminate; assumption. Qed.
Lemma g_expr k : goes_on m_expr k -> In k [SEMICOLON; R_PAREN; EOF].
Proof. intros H. inversion H; subst; try discriminate; assumption. Qed.
Lemma g_address_lit k : goes_on m_address_lit k -> In k [PLUS; MINUS; STAR; SLASH; SEMICOLON; R_PAREN; EOF].
Proof. intros H. inversion H; subst; try discriminate; assumption. Qed.
Lemma g_address k : goes_on m_address k -> In k [ADDRESS_KW; MODULE_KW; SCRIPT_KW; L_BRACE; EOF].
Proof. intros H. inversion H; subst; try discriminate; assumption. Qed.
Lemma g_field k : goes_on m_field k -> ~ In k [IDENT; L_BRACE; COLON_COLON].
Proof. intros H. inversion H; subst; try discriminate; assumption. Qed.
Lemma g_comma k : goes_on m_comma k -> k = IDENT.
Proof. intros H. inversion H; subst; try discriminate; reflexivity. Qed.
Lemma g_close k : goes_on m_close k -> k = EOF.
Proof. intros H. inversion H; subst; try discriminate; reflexivity. Qed.

Lemma use_prog t {A} (p : prog A) ok slack a b f gs rest l kids stk sp (Q : A -> tst -> Prop) :
  z_prog t p ok slack a b f -> fit f gs rest -> ok (gcur rest) -> sp + 5 * weight f + slack <= 10000 ->
  (forall x l' sp', sp' + a <= sp + 5 * weight f + b -> Q x (TS rest l' (kids ++ f) stk sp')) ->
  tw t p (TS (gs ++ rest) l kids stk sp) Q.
Proof.
  intros H F O L HQ. eapply tw_mono; [apply H; assumption|]. intros x st' (l' & sp' & -> & B). apply HQ. exact B.
Qed.
Lemma use_open t {A} (p : nat -> prog A) ok slack a b f gs rest l kids stk sp m (Q : A -> tst -> Prop) :
  z_open t p ok slack a b f -> fit f gs rest -> ok (gcur rest) -> sp + 5 * weight f + slack <= 10000 ->
  (forall x l' sp', sp' + a <= sp + 5 * weight f + b -> Q x (TS rest l' (kids ++ f) stk sp')) ->
  tw t (p m) (TS (gs ++ rest) l [] (Open m None kids :: stk) sp) Q.
Proof.
  intros H F O L HQ. eapply tw_mono; [apply H; assumption|]. intros x st' (l' & sp' & -> & B). apply HQ. exact B.
Qed.

(** *** Tactics *)
(** tokens of a forest *)
Ltac fitz :=
  repeat match goal with
  | H : fit [] _ _ |- _ => apply fit_nil_inv in H; subst
  | H : fit (TTok _ :: _) _ _ |- _ => apply fit_tok in H as (? & ? & ? & ? & ->)
  | H : fit (TErr _ :: _) _ _ |- _ => apply fit_err in H as [? H]
  | H : fit (name_node :: _) _ _ |- _ => unfold name_node in H
  | H : fit (name_ref_node :: _) _ _ |- _ => unfold name_ref_node in H
  | H : fit (segment_node :: _) _ _ |- _ => unfold segment_node, name_ref_node in H
  | H : fit (TNode ERROR _ :: _) _ _ |- _ => fail 1
  | H : fit (TNode ?k _ :: _) _ _ |- _ => is_constructor k; apply fit_node in H as (? & ? & ? & ? & ->); [|discriminate]
  | H : fit (_ :: ?r) _ _ |- _ => lazymatch r with [] => fail | _ => apply fit_cons in H as (? & ? & ? & ? & ->) end
  | H : fit (_ ++ _) _ _ |- _ => apply fit_app in H as (? & ? & ? & ? & ->)
  | H : stands_for _ (fst ?g) |- _ => destruct g as [[? ?] ?]; cbn [stands_for fst snd] in H;
      lazymatch type of H with _ /\ _ => destruct H as [-> [? ->]] | _ => subst end
  end;
  repeat match goal with
  | H : fit _ _ ?r |- _ => progress (rewrite <- ?app_assoc in H; cbn [app] in H)
  | H : goes_on _ _ |- _ => progress (rewrite <- ?app_assoc in H; cbn [app gcur fst snd] in H)
  end.
(** the weight of a forest *)
Lemma weight_nil : weight [] = 0.
Proof. reflexivity. Qed.
Lemma weight_tok k : weight1 (TTok k) = 1.
Proof. reflexivity. Qed.
Lemma weight_err m : weight1 (TErr m) = 1.
Proof. reflexivity. Qed.
Lemma weight_name : weight1 name_node = 1.
Proof. reflexivity. Qed.
Lemma weight_name_ref : weight1 name_ref_node = 1.
Proof. reflexivity. Qed.
Lemma weight_segment : weight1 segment_node = 1.
Proof. reflexivity. Qed.
Lemma weight_instead m k : weight1 (instead m k) = 2.
Proof. reflexivity. Qed.
Lemma weight_skipped m js : weight1 (skipped m js) = 1 + N.of_nat (length js).
Proof. unfold skipped. rewrite weight_node, weight_cons, weight_toks. cbn [weight1 unseparated]. lia. Qed.
Global Hint Rewrite weight_instead weight_skipped weight_app weight_cons weight_node weight_nil weight_tok weight_err weight_name weight_name_ref weight_segment : wt.
Ltac wts := autorewrite with wt in *.
Ltac wl := repeat match goal with H : kind_eqb _ _ = _ |- _ => clear H end; wts; lia.
Ltac init := intros; fitz; offs; repeat (progress (rewrite <- ?app_assoc; cbn [app])).
Ltac st1 :=
  match goal with
  | |- tw _ (pbind _ _) _ _ => apply tw_bind
  | |- tw _ (Ret _) _ _ => apply tw_ret; cbv beta
  | |- tw _ (if true then _ else _) _ _ => cbv iota
  | |- tw _ (if false then _ else _) _ _ => cbv iota
  | |- tw _ (if _ then _ else _) _ _ => progress cbn [negb andb orb]
  | |- tw _ current _ _ => apply r_current; cbv beta; kev
  | |- tw _ (at_ _) _ _ => apply r_at; [wl|cbv beta; kev]
  | |- tw _ (at_ts _) _ _ => apply r_at_ts; cbv beta; kev
  | |- tw _ (eat _) _ _ => first [apply r_eat_yes; [wl|lk|cbv beta] | apply r_eat_no; [wl|lk|cbv beta]]
  | |- tw _ (bump _) _ _ => apply r_bump; [wl|lk|cbv beta]
  | |- tw _ (expect _) _ _ => first [apply r_expect; [wl|lk|cbv beta] | apply r_expect_no; [wl|lk|cbv beta]]
  | |- tw _ (error _) _ _ => apply r_error; cbv beta
  | |- tw _ (abandon _) _ _ => apply r_abandon; cbv beta
  | |- tw _ bump_any _ _ => apply r_bump_any; [discriminate|cbv beta; cbn [fst snd]]
  | |- tw _ (bump_remap _) _ _ => apply r_bump_remap; [wl|discriminate|cbv beta]
  | |- tw _ current_text _ _ => apply r_text; cbv beta; cbn [fst snd]
  | |- tw _ start _ _ => apply r_start; intros ?
  | |- tw _ (complete _ _) _ _ => apply r_complete; [discriminate|intros ?; cbn [opt_tree app]]
  | |- tw _ (name_r _) _ _ => apply r_name; [wl|reflexivity|intros ?]
  | |- tw _ name _ _ => apply r_name; [wl|reflexivity|intros ?]
  | |- tw _ name_ref _ _ => apply r_name_ref; [wl|reflexivity|intros ?]
  | |- tw _ (assert_p _) _ _ => apply r_assert
  | |- true = true /\ _ => split; [reflexivity|]
  | |- tw _ (andp _ _) _ _ => unfold andp
  | |- tw _ (orp _ _) _ _ => unfold orp
  | |- tw _ (notp _) _ _ => unfold notp
  end.
Ltac st := repeat st1.
Ltac done_ := do 2 eexists; split; [norm; reflexivity|wl].
Ltac donec := eexists; split; [norm; reflexivity|wl].
(** use a statement *)
Lemma nf_off f k : off [L_BRACE; COLON_COLON] k -> no_fields f k.
Proof. unfold off. cbn [existsb]. intros H. unfold no_fields, off. cbn [existsb]. destruct (kind_eqb k L_BRACE), (kind_eqb k COLON_COLON); auto. Qed.
Lemma nf_sub e e' k : (last_path e' = true -> last_path e = true) -> no_fields [e] k -> no_fields [e'] k.
Proof. intros I [H1 H2]. split; [exact H1|]. intros (x & E & Hx). injection E as <-. apply H2. exists e. auto. Qed.
Lemma nf_brace e k : last_path e = true -> no_fields [e] k -> off [L_BRACE; COLON_COLON] k.
Proof.
  intros P [H1 H2]. assert (H3 : off [L_BRACE] k) by (apply H2; eauto). unfold off in *. cbn [existsb] in *.
  destruct (kind_eqb k L_BRACE), (kind_eqb k COLON_COLON); auto.
Qed.
Ltac fol := first [exact I | assumption | congruence | unfold off; cbn [existsb expr_end]; kev; reflexivity | left; reflexivity
  | intros _; unfold off; cbn [existsb]; kev; reflexivity | apply nf_off; unfold off; cbn [existsb]; kev; reflexivity
  | let X := fresh in intros X; discriminate X].
Ltac use H := first [eapply (use_prog _ _ _ _ _ _ _ _ _ _ _ _ _ _ H) | eapply (use_open _ _ _ _ _ _ _ _ _ _ _ _ _ _ _ H)];
  [eassumption|try fol|wl|intros ? ? ? ?; cbv beta].
(** the first token is none of [xs] *)
Ltac first_off xs := match goal with S : starts ?ks ?f, F : fit ?f ?gs ?r |- context [?gs ++ ?r] =>
    pose proof (starts_off ks f gs r S (proj1 F) ltac:(cbn; intuition discriminate) xs eq_refl); offs
  end.
Ltac first_is := match goal with S : starts [?k] ?f, F : fit ?f ?gs ?r |- context [?gs ++ ?r] =>
    pose proof (starts_one k f gs r S ltac:(discriminate) (proj1 F))
  end.
Ltac next_off := match goal with S : _ = [] \/ starts ?ks ?f, F : fit ?f ?gs ?r |- off ?xs (gcur (?gs ++ ?r)) =>
    apply (list_off ks f gs r S (proj1 F) ltac:(cbn; intuition discriminate) xs eq_refl)
  end.
(** the token behind a missing part is none of [xs] *)
Ltac behind L xs := match goal with H : goes_on _ ?k |- _ => pose proof (in_off k _ xs (L _ H) eq_refl); offs end.

Ltac known L := match goal with H : goes_on _ _ |- _ => apply L in H; cbn [In] in H;
  repeat (destruct H as [H|H]; [rewrite <- H; first [left; reflexivity | right; left; reflexivity | right; right; reflexivity]|]); destruct H end.

(** tokens that end an expression *)
Definition zends (k : kind) : Prop := existsb (kind_eqb k) [COMMA; R_PAREN; R_BRACE; SEMICOLON; EOF] = true.
Lemma zends_off k : zends k -> off expr_end k /\ prec k = None.
Proof. unfold zends. destruct k; intros H; try discriminate H; split; reflexivity. Qed.
(** tokens with which the expression [e] does not go on *)
Definition ender (e : tree) (k : kind) : Prop := off [COLON_COLON] k /\ ~ takes e k.
Lemma zends_ender e k : zends k -> ender e k.
Proof.
  unfold zends. destruct k; intros H; try discriminate H; (split; [reflexivity|]);
    intros [[p P]|[P|[_ P]]]; try discriminate P; cbn in P; intuition discriminate.
Qed.
Lemma ender_parts e k : ender e k -> off [L_PAREN; DOT] k /\ no_fields [e] k /\ prec k = None.
Proof.
  intros [C T]. split; [|split].
  - apply off_not. intros X. apply T. right. left. exact X.
  - split; [exact C|]. intros (x & E & P). injection E as <-. apply off_not. intros [X|[]]. apply T. right. right. auto.
  - destruct (prec k) eqn:E; [|reflexivity]. exfalso. apply T. left. eauto.
Qed.
Ltac zendk := first [assumption | unfold zends; cbn [gcur fst snd app existsb]; kev; reflexivity].
Ltac tcall := match goal with |- ParserTotal.tw ?t (call ?f) ?st ?Q => apply (tw_call t f st Q) end.
Ltac go f := tcall; cbn [body]; unfold f; st.

Lemma address_weight a : z_address_name [a] -> weight1 a = 1.
Proof. intros [E|E]; injection E as ->; reflexivity. Qed.

(** the closing brace, or the end of the file *)
Lemma closes_close c gs rest : z_close c -> fit c gs rest -> closes (gcur (gs ++ rest)).
Proof.
  intros [-> | ->] F; fitz; [left; reflexivity|]. right. cbn [app]. apply g_close. assumption.
Qed.
Lemma close_weight c : z_close c -> weight c = 1.
Proof. intros [-> | ->]; reflexivity. Qed.
Lemma r_close t c gs rest l kids stk sp (Q : _ -> tst -> Prop) : z_close c -> fit c gs rest -> sp <= 10000 ->
  (forall x l', Q x (TS rest l' (kids ++ c) stk (sp + 1))) -> tw t (expect R_BRACE) (TS (gs ++ rest) l kids stk sp) Q.
Proof.
  intros [-> | ->] F L HQ; fitz; cbn [app] in *.
  - apply r_expect; [exact L|reflexivity|]. apply HQ.
  - apply r_expect_no; [exact L| |apply HQ]. match goal with H : goes_on _ _ |- _ => apply g_close in H; rewrite H end. reflexivity.
Qed.
Ltac close_ HC := eapply r_close; [exact HC|eassumption|wl|intros ? ?].
Ltac closed HC := first [eapply closes_close; [exact HC|eassumption]].

Section Text.
  Variable t : text.
  Notation tw := (tw t).

  (** *** Paths and types *)
  Lemma pfq_stop c gs l ks stk sp (Q : _ -> tst -> Prop) : kind_eqb (gcur gs) COLON_COLON = false -> sp + 1 <= 10000 ->
    Q tt (TS gs l ks stk (sp + 2)) -> tw (call (F_path_for_qualifier c)) (TS gs l ks stk sp) Q.
  Proof.
    intros E L H. tcall. cbn [body]. unfold path_for_qualifier_body. st. apply r_nth2; [wl|]. intros x _.
    cbv beta zeta. st. replace (sp + 2) with (sp + 1 + 1) in H by wl. exact H.
  Qed.

  Lemma b_path_name : z_path t [TNode PATH [segment_node]].
  Proof.
    intros gs rest l kids stk sp Q. init. unfold path. st. unfold path_segment. st. cbv zeta. st. 
    apply H1. wl.
  Qed.

  Lemma b_path p : z_path t [p] -> z_path t [TNode PATH [p; TTok COLON_COLON; segment_node]].
  Proof.
    intros HP gs rest l kids stk sp Q. init. eapply HP; [eassumption|wl|]. intros c sp' Hsp.
    tcall. cbn [body]. unfold path_for_qualifier_body. st. apply r_nth2; [wl|]. intros y Hy.
    cbv beta zeta. st. destruct (Hy eq_refl eq_refl) as [N1 N2].
    apply kind_eqb_neq in N1, N2. kev. st. apply r_precede. intros m. st. unfold path_segment. st. cbv zeta. st.
    apply H1. wl.
  Qed.

  (** a path that zends here *)
  Lemma r_path f gs rest l kids stk sp (Q : _ -> tst -> Prop) : z_path t f -> fit f gs rest -> off [COLON_COLON] (gcur rest) ->
    sp + 5 * weight f + 10 <= 10000 ->
    (forall l' sp', sp' <= sp + 5 * weight f -> Q tt (TS rest l' (kids ++ f) stk sp')) ->
    tw path (TS (gs ++ rest) l kids stk sp) Q.
  Proof.
    intros HP F O L HQ. offs. apply HP; [exact F|wl|]. intros c sp' B. apply pfq_stop; [assumption|wl|]. apply HQ. wl.
  Qed.

  Lemma b_type_path p : starts [IDENT] [p] -> z_path t [p] -> z_type t [TNode PATH_TYPE [p]].
  Proof.
    intros S1 HP gs rest l kids stk sp. init. first_is.
    go type_body. unfold is_path_start. st. unfold path_type. st. unfold is_path_start. st. unfold type_path.
    eapply r_path; [exact HP|assumption|fol|wl|]. intros l' sp' B. st. done_.
  Qed.

  Lemma b_type_ref ty : z_type_of t [ty] -> z_type t [TNode REF_TYPE [TTok AMP; ty]].
  Proof.
    intros [HP HM] gs rest l kids stk sp. init.
    match goal with F : fit [ty] ?g ?r |- _ => pose proof (HM g r F); offs end.
    go type_body. unfold ref_type. st. unfold type_. use HP. st. done_.
  Qed.

  Lemma b_type_of ty : starts [IDENT; AMP] [ty] -> z_type t [ty] -> z_type_of t [ty].
  Proof. intros S1 HT. split; [exact HT|]. intros gs rest F. first_off [MUT_KW]. fol. Qed.
  Lemma b_type_gap : z_type_of t [TErr m_type].
  Proof.
    split.
    - intros gs rest l kids stk sp. init. behind g_type [AMP; IDENT]. go type_body. unfold is_path_start. st.
      apply r_recover; [known g_type|done_].
    - intros gs rest F. fitz. cbn [app]. behind g_type [MUT_KW]. fol.
  Qed.
  Lemma b_type_wrong k : wrong [IDENT; AMP] m_type k -> z_type_of t [instead m_type k].
  Proof.
    intros (W1 & W2 & W3).
    assert (ND : k <> DIEM_ADDRESS) by (intros ->; apply W1; cbn; tauto).
    split.
    - intros gs rest l kids stk sp F O L. apply fit_instead in F as ([[k' w] tr] & gs' & E & F & ->); [|exact ND].
      cbn [fst snd] in E. subst k'. fitz. apply off_not in W2. offs. go type_body. unfold is_path_start. st.
      apply r_instead; cbn [fst snd].
      + intros ->. apply W3. constructor. cbn. tauto.
      + intros ->. apply W3. constructor. cbn. tauto.
      + intros ->. apply W1. cbn. tauto.
      + rewrite ts_has_spec. apply off_not. intros X. apply W3. constructor. cbn in *. tauto.
      + intros l'. done_.
    - intros gs rest F. apply fit_instead in F as ([[k' w] tr] & gs' & E & F & ->); [|exact ND]. cbn [fst snd] in E. subst k'.
      cbn [app gcur fst]. apply off_not. intros [<-|[]]. apply W1. cbn. tauto.
  Qed.

  Lemma b_type_ref_mut ty : z_type t [ty] -> z_type t [TNode REF_TYPE [TTok AMP; TTok MUT_KW; ty]].
  Proof.
    intros HP gs rest l kids stk sp. init. go type_body. unfold ref_type. st. unfold type_. use HP. st. done_.
  Qed.

  (** *** Structs *)
  Lemma b_field ty : z_type t [ty] -> z_field t [TNode RECORD_FIELD [name_node; TTok COLON; ty]].
  Proof. intros HT gs rest l kids stk sp. init. unfold record_field. st. unfold type_. use HT. st. done_. Qed.

  Lemma b_fields_nil : z_fields t [].
  Proof. intros gs rest l kids stk sp. init. go record_fields_body. done_. Qed.
  Lemma b_fields_last e : starts [IDENT] [e] -> z_field t [e] -> z_fields t [e].
  Proof.
    intros S1 HE gs rest l kids stk sp. init. first_off [R_BRACE; EOF]. go record_fields_body. use HE. st.
    go record_fields_body. done_.
  Qed.
  Lemma b_fields_gap e r : starts [IDENT] [e] -> z_field t [e] -> z_fields t r -> z_fields t (e :: TErr m_comma :: r).
  Proof.
    intros S1 HE HR gs rest l kids stk sp. init. first_off [R_BRACE; EOF].
    match goal with H : goes_on _ _ |- _ => apply g_comma in H end.
    go record_fields_body. use HE. st. use HR. done_.
  Qed.
  Lemma b_fields_more e r : starts [IDENT] [e] -> z_field t [e] -> z_fields t r -> z_fields t (e :: TTok COMMA :: r).
  Proof.
    intros S1 HE HR gs rest l kids stk sp. init. first_off [R_BRACE; EOF]. go record_fields_body. use HE. st.
    use HR. done_.
  Qed.

  Lemma b_bounds_nil : z_bounds t [].
  Proof. intros gs rest l kids stk sp. init. go bounds_body. unfold type_bound. st. done_. Qed.
  Lemma b_bounds_one : z_bounds t [TNode TYPE_BOUND [name_node]].
  Proof. intros gs rest l kids stk sp. init. go bounds_body. unfold type_bound. st. done_. Qed.
  Lemma b_bounds_more bs : z_bounds t bs -> z_bounds t (TNode TYPE_BOUND [name_node] :: TTok PLUS :: bs).
  Proof. intros HB gs rest l kids stk sp. init. go bounds_body. unfold type_bound. st. use HB. done_. Qed.

  Lemma b_type_param : z_type_param t [TNode TYPE_PARAM [name_node]].
  Proof. intros gs rest l kids stk sp. init. unfold generic_param. st. unfold type_param. st. done_. Qed.
  Lemma b_type_param_bounds bs : z_bounds t bs ->
    z_type_param t [TNode TYPE_PARAM [name_node; TTok COLON; TNode TYPE_BOUND_LIST bs]].
  Proof.
    intros HB gs rest l kids stk sp. init. unfold generic_param. st. unfold type_param. st. unfold bounds. st.
    unfold bounds_without_colon. st. unfold bounds_without_colon_m. st. use HB. st. done_.
  Qed.
  Lemma b_type_params_nil : z_type_params t [].
  Proof. intros gs rest l kids stk sp. init. go generic_params_body. done_. Qed.
  Lemma b_type_params_last e : starts [IDENT] [e] -> z_type_param t [e] -> z_type_params t [e].
  Proof.
    intros S1 HE gs rest l kids stk sp. init. first_off [GT; EOF]. go generic_params_body. use HE. st.
    go generic_params_body. done_.
  Qed.
  Lemma b_type_params_more e r : starts [IDENT] [e] -> z_type_param t [e] -> z_type_params t r ->
    z_type_params t (e :: TTok COMMA :: r).
  Proof.
    intros S1 HE HR gs rest l kids stk sp. init. first_off [GT; EOF]. go generic_params_body. use HE. st. use HR. done_.
  Qed.

  Lemma b_name : z_name t [name_node].
  Proof. intros gs rest l kids stk sp. init. st. done_. Qed.
  Lemma b_name_gap : z_name t [TErr m_name].
  Proof.
    intros gs rest l kids stk sp. init. behind g_name [IDENT]. unfold name_r. st.
    apply r_recover; [known g_name|done_].
  Qed.
  Lemma b_name_wrong k : wrong [IDENT] m_name k -> z_name t [instead m_name k].
  Proof.
    intros (W1 & W2 & W3) gs rest l kids stk sp F O L.
    apply fit_instead in F as ([[k' w] tr] & gs' & E & F & ->); [|intros ->; apply W1; cbn; tauto].
    cbn [fst snd] in E. subst k'. fitz. apply off_not in W2. offs. unfold name_r. st.
    apply r_instead; cbn [fst snd].
    - intros ->. apply W3. constructor. cbn. tauto.
    - intros ->. apply W3. constructor. cbn. tauto.
    - intros ->. apply W1. cbn. tauto.
    - rewrite ts_has_spec. apply off_not. intros X. apply W3. constructor. cbn in *. tauto.
    - intros l'. done_.
  Qed.

  Lemma b_struct n g b : z_name t [n] -> z_generics t g -> z_struct_body t b ->
    z_opt_item t [TNode STRUCT (TTok STRUCT_KW :: n :: g ++ b)].
  Proof.
    intros HN [-> | (ps & -> & HP)] [-> | [-> | (fs & -> & HF)]] gs rest l kids stk sp m; init;
      try (behind g_body [LT; L_BRACE; SEMICOLON]); unfold opt_item; st; unfold struct_; st; use HN; st;
      unfold opt_generic_param_list; st; try (unfold generic_param_list; st; use HP; st);
      try (unfold record_field_list; st; use HF; st); st; done_.
  Qed.

  (** *** Functions *)
  Lemma b_param ty : z_type t [ty] -> z_param t [TNode PARAM [name_node; TTok COLON; ty]].
  Proof.
    intros HT gs rest l kids stk sp m. init. unfold param. st. unfold ascription. st. unfold type_. use HT. st. done_.
  Qed.
  Lemma b_params_nil : z_params t [].
  Proof. intros gs rest l kids stk sp. init. go params_body. done_. Qed.
  Lemma b_params_last e : starts [IDENT] [e] -> z_param t [e] -> z_params t [e].
  Proof.
    intros S1 HE gs rest l kids stk sp. init. first_is. go params_body. use HE. st.
    go params_body. done_.
  Qed.
  Lemma b_param_gap : z_param t [TNode PARAM [name_node; TErr m_param_type]].
  Proof. intros gs rest l kids stk sp m. init. behind g_param_type [COLON]. unfold param. st. done_. Qed.
  Lemma b_params_gap e r : starts [IDENT] [e] -> z_param t [e] -> z_params t r -> z_params t (e :: TErr m_comma :: r).
  Proof.
    intros S1 HE HR gs rest l kids stk sp. init. first_is.
    match goal with H : goes_on _ _ |- _ => apply g_comma in H end.
    go params_body. use HE. st. use HR. done_.
  Qed.
  Lemma b_params_more e r : starts [IDENT] [e] -> z_param t [e] -> z_params t r -> z_params t (e :: TTok COMMA :: r).
  Proof.
    intros S1 HE HR gs rest l kids stk sp. init. first_is. go params_body. use HE. st. use HR. done_.
  Qed.

  Lemma joints_app ss c : z_close c -> joints (ss ++ c) = joints ss.
  Proof.
    intros HC. induction ss as [|x ss IH]; [destruct HC as [-> | ->]; reflexivity|]. cbn [app joints].
    rewrite IH. destruct ss as [|y ss]; [destruct HC as [-> | ->]; reflexivity|]. reflexivity.
  Qed.
  Lemma b_block ss c : z_stmts t ss -> z_close c -> z_block t [TNode BLOCK_EXPR (TTok L_BRACE :: ss ++ c)].
  Proof.
    intros HS HC gs rest l kids stk sp. pose proof (close_weight _ HC). pose proof (joints_app ss c HC) as J. init.
    rewrite !weight_cons, !weight_node in *. cbn [unseparated tl] in *. rewrite J in *. clear J. unfold block_expr_unchecked. st.
    unfold block_contents. use HS; [closed HC|]. st. close_ HC. st. donec.
  Qed.

  Lemma use_block f gs rest l kids stk sp (Q : _ -> tst -> Prop) :
    z_block t f -> fit f gs rest -> sp + 5 * weight f + 10 <= 10000 ->
    (forall c sp', sp' + 1 <= sp + 5 * weight f -> Q c (TS rest (Some c) (kids ++ f) stk sp')) ->
    tw block_expr_unchecked (TS (gs ++ rest) l kids stk sp) Q.
  Proof.
    intros H F L HQ. eapply tw_mono; [apply H; assumption|]. intros c st' (sp' & -> & B). apply HQ. exact B.
  Qed.

  Lemma b_function n ps r b : z_name t [n] -> z_params_of t [ps] -> z_ret t r -> z_body_of t [b] ->
    z_opt_item t [TNode FUNCTION_DEF (TTok FUN_KW :: n :: ps :: r ++ [b])].
  Proof.
    intros HN HP HR HB gs rest l kids stk sp m.
    destruct HP as [E | (fs & E & HP)]; injection E as ->; destruct HR as [-> | (ty & -> & HT)];
      (destruct HB as [E | (b' & E & S1 & HB)]; [|symmetry in E]; injection E as ->); init;
      try (behind g_block [COLON; L_BRACE; COLON_COLON; L_PAREN]); try (behind g_params [L_PAREN; COLON_COLON]);
      unfold opt_item; st; unfold function_def; st; use HN; st;
      try (unfold param_list; st; use HP; st); unfold opt_ret_type; try first_is; st;
      try (unfold type_; use HT); st; unfold block_expr; st;
      try (eapply use_block; [exact HB|eassumption|wl|]; intros ? ? ?; st); done_.
  Qed.
End Text.
