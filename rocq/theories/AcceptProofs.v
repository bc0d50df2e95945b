(** The grammar functions get through every phrase of the grammar of
    SyntaxSpec.v and build its tree. *)
From Coq Require Import String.
From Verif Require Import Base BaseProofs Kinds KindsProofs LexSpec TokenSet Lexer LexerStateProofs
  Parser Grammar GrammarProofs TreeSpec ParserLogic ParserTotal SyntaxSpec AcceptRules.
Local Open Scope N_scope.

Lemma fits_one x gs : Forall2 (fun k g => stands_for k (fst g)) (leaves x) gs -> fits [x] gs.
Proof. unfold fits. cbn [flat_map]. rewrite app_nil_r. auto. Qed.
Lemma fits_app a b (gs : list group) : Forall2 (fun k g => stands_for k (fst g)) (a ++ b) gs ->
  exists g1 g2 : list group, Forall2 (fun k g => stands_for k (fst g)) a g1 /\
    Forall2 (fun k g => stands_for k (fst g)) b g2 /\ gs = g1 ++ g2.
Proof. apply Forall2_app_inv_l. Qed.
Lemma size_app a b : size (a ++ b) = size a + size b.
Proof. unfold size. rewrite app_length. lia. Qed.
Lemma size_cons g gs : size (g :: gs) = 1 + size gs.
Proof. unfold size. cbn [length]. lia. Qed.
Lemma size_nil : size [] = 0.
Proof. reflexivity. Qed.

Lemma starts_off ks f gs rest : starts ks f -> fits f gs -> ~ In DIEM_ADDRESS ks ->
  forall xs, forallb (fun k => negb (existsb (kind_eqb k) xs)) ks = true -> off xs (gcur (gs ++ rest)).
Proof.
  intros (k & r & E & Hk) F N xs H. unfold fits in F. rewrite E in F. inversion F as [|? g ? gs' S F']; subst.
  cbn [app gcur]. rewrite forallb_forall in H. specialize (H _ Hk). apply negb_true_iff in H.
  assert (X : fst (fst g) = k).
  { destruct k; try exact S. contradiction. }
  rewrite X. exact H.
Qed.

Lemma list_off ks f gs rest : f = [] \/ starts ks f -> fits f gs -> ~ In DIEM_ADDRESS ks ->
  forall xs, forallb (fun k => negb (existsb (kind_eqb k) xs)) ks = true -> off xs (gcur rest) -> off xs (gcur (gs ++ rest)).
Proof.
  intros [-> |S] F N xs H O; [|eapply starts_off; eauto]. inversion F; subst. exact O.
Qed.

Lemma starts_one k f gs rest : starts [k] f -> k <> DIEM_ADDRESS -> fits f gs -> gcur (gs ++ rest) = k.
Proof.
  intros (k' & r & E & [<-|[]]) N F. unfold fits in F. rewrite E in F. inversion F as [|? g ? gs' S F']; subst.
  destruct k; try exact S. contradiction.
Qed.

Lemma use_prog t {A} (p : prog A) ok slack a b f gs rest l kids stk sp (Q : A -> tst -> Prop) :
  s_prog t p ok slack a b f -> fits f gs -> ok (gcur rest) -> sp + 5 * size gs + slack <= 10000 ->
  (forall x l' sp', sp' + a <= sp + 5 * size gs + b -> Q x (TS rest l' (kids ++ f) stk sp')) ->
  tw t p (TS (gs ++ rest) l kids stk sp) Q.
Proof.
  intros H F O L HQ. eapply tw_mono; [apply H; assumption|]. intros x st' (l' & sp' & -> & B). apply HQ. exact B.
Qed.
Lemma use_open t {A} (p : nat -> prog A) ok slack a b f gs rest l kids stk sp m (Q : A -> tst -> Prop) :
  s_open t p ok slack a b f -> fits f gs -> ok (gcur rest) -> sp + 5 * size gs + slack <= 10000 ->
  (forall x l' sp', sp' + a <= sp + 5 * size gs + b -> Q x (TS rest l' (kids ++ f) stk sp')) ->
  tw t (p m) (TS (gs ++ rest) l [] (Open m None kids :: stk) sp) Q.
Proof.
  intros H F O L HQ. eapply tw_mono; [apply H; assumption|]. intros x st' (l' & sp' & -> & B). apply HQ. exact B.
Qed.

(** *** Tactics *)
Ltac compound f := match f with
  | [?x] => is_var x; fail 1
  | _ => first [is_var f; fail 1 | idtac]
  end.
(** tokens of a forest *)
Ltac fitinv :=
  repeat match goal with
  | H : fits ?f _ |- _ => compound f; unfold fits in H
  | H : Forall2 _ ?l _ |- _ => progress (cbn [flat_map leaves app name_node name_ref_node segment_node] in H;
                                         rewrite ?flat_map_app, ?app_nil_r, <- ?app_assoc in H)
  | H : Forall2 _ (_ ++ _) _ |- _ => apply fits_app in H as (? & ? & ? & ? & ->)
  | H : Forall2 _ (_ :: _) _ |- _ => inversion H; subst; clear H
  | H : Forall2 _ [] _ |- _ => inversion H; subst; clear H
  | H : Forall2 _ (leaves _) _ |- _ => apply fits_one in H
  | H : Forall2 _ (flat_map leaves ?f) ?gs |- _ => is_var f; change (fits f gs) in H
  | H : stands_for _ (fst ?g) |- _ => destruct g as [[? ?] ?]; cbn [stands_for fst snd] in H;
      lazymatch type of H with _ /\ _ => destruct H as [-> [? ->]] | _ => subst end
  end.
Ltac sizes := repeat match goal with
  | |- context [size (_ ++ _)] => rewrite size_app
  | |- context [size (_ :: _)] => rewrite size_cons
  | H : context [size (_ ++ _)] |- _ => rewrite size_app in H
  | H : context [size (_ :: _)] |- _ => rewrite size_cons in H
  | H : context [size ?n] |- _ => match n with [] => change (size n) with 0 in H end
  | |- context [size ?n] => match n with [] => change (size n) with 0 end
  end.
(** [off] hypotheses *)
Ltac offs := repeat match goal with
  | H : off _ _ |- _ => unfold off in H; cbn [existsb expr_end] in H
  | H : _ || _ = false |- _ => apply orb_false_iff in H as [? H]
  | H : false = false |- _ => clear H
  | H : any _ |- _ => clear H
  | H : ?k = gcur _ |- _ => symmetry in H
  end.
Ltac init := intros; fitinv; offs; sizes; repeat (progress (rewrite <- ?app_assoc; cbn [app])).
(** decide comparisons of kinds *)
Ltac kev := cbn [gcur fst snd app];
  repeat match goal with
  | H : kind_eqb ?a ?b = _ |- context [kind_eqb ?a ?b] => rewrite H
  | H : gcur ?r = _ |- context [gcur ?r] => rewrite H
  | |- context [kind_eqb ?a ?b] => is_constructor a; is_constructor b;
      let v := eval vm_compute in (kind_eqb a b) in change (kind_eqb a b) with v
  | |- context [ts_has ?s ?b] => is_constructor b;
      let v := eval vm_compute in (ts_has s b) in change (ts_has s b) with v
  end; cbn [negb andb orb].
Ltac kev_in H := cbn [gcur fst snd app] in H.
Ltac lk := first [reflexivity | kev; reflexivity].
(** one step *)
Ltac unfold_head p := let h := get_head p in unfold h
with get_head p := match p with ?f _ => get_head f | ?f => f end.
Ltac st1 :=
  match goal with
  | |- tw _ (pbind _ _) _ _ => apply tw_bind
  | |- tw _ (Ret _) _ _ => apply tw_ret; cbv beta
  | |- tw _ (if true then _ else _) _ _ => cbv iota
  | |- tw _ (if false then _ else _) _ _ => cbv iota
  | |- tw _ (if _ then _ else _) _ _ => progress cbn [negb andb orb]
  | |- tw _ current _ _ => apply r_current; cbv beta; kev
  | |- tw _ (at_ _) _ _ => apply r_at; [lia|cbv beta; kev]
  | |- tw _ (at_ts _) _ _ => apply r_at_ts; cbv beta; kev
  | |- tw _ (eat _) _ _ => first [apply r_eat_yes; [lia|lk|cbv beta] | apply r_eat_no; [lia|lk|cbv beta]]
  | |- tw _ (bump _) _ _ => apply r_bump; [lia|lk|cbv beta]
  | |- tw _ (expect _) _ _ => apply r_expect; [lia|lk|cbv beta]
  | |- tw _ bump_any _ _ => apply r_bump_any; [discriminate|cbv beta; cbn [fst snd]]
  | |- tw _ (bump_remap _) _ _ => apply r_bump_remap; [lia|discriminate|cbv beta]
  | |- tw _ current_text _ _ => apply r_text; cbv beta; cbn [fst snd]
  | |- tw _ start _ _ => apply r_start; intros ?
  | |- tw _ (complete _ _) _ _ => apply r_complete; [discriminate|intros ?; cbn [opt_tree app]]
  | |- tw _ (name_r _) _ _ => apply r_name; [lia|reflexivity|intros ?]
  | |- tw _ name _ _ => apply r_name; [lia|reflexivity|intros ?]
  | |- tw _ name_ref _ _ => apply r_name_ref; [lia|reflexivity|intros ?]
  | |- tw _ (assert_p _) _ _ => apply r_assert
  | |- true = true /\ _ => split; [reflexivity|]
  | |- tw _ (andp _ _) _ _ => unfold andp
  | |- tw _ (orp _ _) _ _ => unfold orp
  | |- tw _ (notp _) _ _ => unfold notp
  end.
Ltac st := repeat st1.
Ltac norm := rewrite <- ?app_assoc, ?app_nil_r; cbn [app opt_tree].
Ltac done_ := do 2 eexists; split; [norm; reflexivity|lia].
Ltac donec := eexists; split; [norm; reflexivity|lia].
(** use a statement *)
Ltac fol := first [exact I | assumption | congruence | unfold off; cbn [existsb expr_end]; kev; reflexivity].
Ltac use H := first [eapply (use_prog _ _ _ _ _ _ _ _ _ _ _ _ _ _ H) | eapply (use_open _ _ _ _ _ _ _ _ _ _ _ _ _ _ _ H)];
  [eassumption|try fol|lia|intros ? ? ? ?; cbv beta].
(** the first token is none of [xs] *)
Ltac first_off xs := match goal with S : starts ?ks ?f, F : fits ?f ?gs |- context [?gs ++ ?r] =>
    pose proof (starts_off ks f gs r S F ltac:(cbn; intuition discriminate) xs eq_refl); offs
  end.
Ltac first_is := match goal with S : starts [?k] ?f, F : fits ?f ?gs |- context [?gs ++ ?r] =>
    pose proof (starts_one k f gs r S ltac:(discriminate) F)
  end.
Ltac next_off := match goal with S : _ = [] \/ starts ?ks ?f, F : fits ?f ?gs |- off ?xs (gcur (?gs ++ ?r)) =>
    apply (list_off ks f gs r S F ltac:(cbn; intuition discriminate) xs eq_refl)
  end.

Definition H_item := [FUN_KW; STRUCT_KW].
Definition H_atom := [TRUE_KW; FALSE_KW; INTEGER_NUMBER; HEX_STRING; BYTE_STRING; ATSIGN; IDENT; L_PAREN; L_BRACE].
Definition H_expr := [STAR; BANG; MINUS] ++ H_atom.
Definition H_pat := [IDENT; MUT_KW; L_PAREN; WILDCARD].

(** tokens that end an expression *)
Definition ends (k : kind) : Prop := existsb (kind_eqb k) [COMMA; R_PAREN; R_BRACE; SEMICOLON] = true.
Lemma ends_off k : ends k -> off expr_end k /\ prec k = None.
Proof. unfold ends. destruct k; intros H; try discriminate H; split; reflexivity. Qed.
Ltac endk := first [assumption | unfold ends; cbn [gcur fst snd app existsb]; kev; reflexivity].
Ltac tcall := match goal with |- ParserTotal.tw ?t (call ?f) ?st ?Q => apply (tw_call t f st Q) end.
Ltac go f := tcall; cbn [body]; unfold f; st.

Ltac asize HA := match goal with F : fits [?a] ?gs |- _ => match type of HA with s_address_name [a] =>
  let E := fresh in assert (E : size gs = 1) by (destruct HA as [E|E]; injection E as ->; clear - F; fitinv; reflexivity) end end.

Section Text.
  Variable t : text.
  Notation tw := (tw t).

  (** *** Paths and types *)
  Lemma pfq_stop c gs l ks stk sp (Q : _ -> tst -> Prop) : kind_eqb (gcur gs) COLON_COLON = false -> sp + 1 <= 10000 ->
    Q tt (TS gs l ks stk (sp + 2)) -> tw (call (F_path_for_qualifier c)) (TS gs l ks stk sp) Q.
  Proof.
    intros E L H. tcall. cbn [body]. unfold path_for_qualifier_body. st. apply r_nth2; [lia|]. intros x _.
    cbv beta zeta. st. replace (sp + 2) with (sp + 1 + 1) in H by lia. exact H.
  Qed.

  Lemma a_path_name : s_path t [TNode PATH [segment_node]].
  Proof.
    intros gs rest l kids stk sp Q. init. unfold path. st. unfold path_segment. st. cbv zeta. st. 
    apply H1. lia.
  Qed.

  Lemma a_path p : s_path t [p] -> s_path t [TNode PATH [p; TTok COLON_COLON; segment_node]].
  Proof.
    intros HP gs rest l kids stk sp Q. init. apply HP; [assumption|lia|]. intros c sp' Hsp.
    tcall. cbn [body]. unfold path_for_qualifier_body. st. apply r_nth2; [lia|]. intros y Hy.
    cbv beta zeta. st. destruct (Hy eq_refl eq_refl) as [N1 N2].
    apply kind_eqb_neq in N1, N2. kev. st. apply r_precede. intros m. st. unfold path_segment. st. cbv zeta. st.
    apply H1. lia.
  Qed.

  (** a path that ends here *)
  Lemma r_path f gs rest l kids stk sp (Q : _ -> tst -> Prop) : s_path t f -> fits f gs -> off [COLON_COLON] (gcur rest) ->
    sp + 5 * size gs + 10 <= 10000 ->
    (forall l' sp', sp' <= sp + 5 * size gs -> Q tt (TS rest l' (kids ++ f) stk sp')) ->
    tw path (TS (gs ++ rest) l kids stk sp) Q.
  Proof.
    intros HP F O L HQ. offs. apply HP; [exact F|lia|]. intros c sp' B. apply pfq_stop; [assumption|lia|]. apply HQ. lia.
  Qed.

  Lemma a_type_path p : starts [IDENT] [p] -> s_path t [p] -> s_type t [TNode PATH_TYPE [p]].
  Proof.
    intros S1 HP gs rest l kids stk sp. init. first_is.
    go type_body. unfold is_path_start. st. unfold path_type. st. unfold is_path_start. st. unfold type_path.
    eapply r_path; [exact HP|assumption|fol|lia|]. intros l' sp' B. st. done_.
  Qed.

  Lemma a_type_ref ty : starts [IDENT; AMP] [ty] -> s_type t [ty] -> s_type t [TNode REF_TYPE [TTok AMP; ty]].
  Proof.
    intros S1 HP gs rest l kids stk sp. init. go type_body. unfold ref_type. st. first_off [MUT_KW]. st. unfold type_. use HP.
    st. done_.
  Qed.

  Lemma a_type_ref_mut ty : s_type t [ty] -> s_type t [TNode REF_TYPE [TTok AMP; TTok MUT_KW; ty]].
  Proof.
    intros HP gs rest l kids stk sp. init. go type_body. unfold ref_type. st. unfold type_. use HP. st. done_.
  Qed.

  (** *** Structs *)
  Lemma a_field ty : s_type t [ty] -> s_field t [TNode RECORD_FIELD [name_node; TTok COLON; ty]].
  Proof. intros HT gs rest l kids stk sp. init. unfold record_field. st. unfold type_. use HT. st. done_. Qed.

  Lemma a_fields_nil : s_fields t [].
  Proof. intros gs rest l kids stk sp. init. go record_fields_body. done_. Qed.
  Lemma a_fields_last e : starts [IDENT] [e] -> s_field t [e] -> s_fields t [e].
  Proof.
    intros S1 HE gs rest l kids stk sp. init. first_off [R_BRACE; EOF]. go record_fields_body. use HE. st.
    go record_fields_body. done_.
  Qed.
  Lemma a_fields_more e r : starts [IDENT] [e] -> s_field t [e] -> s_fields t r -> s_fields t (e :: TTok COMMA :: r).
  Proof.
    intros S1 HE HR gs rest l kids stk sp. init. first_off [R_BRACE; EOF]. go record_fields_body. use HE. st.
    use HR. done_.
  Qed.

  Lemma a_bounds_one : s_bounds t [TNode TYPE_BOUND [name_node]].
  Proof. intros gs rest l kids stk sp. init. go bounds_body. unfold type_bound. st. done_. Qed.
  Lemma a_bounds_more bs : s_bounds t bs -> s_bounds t (TNode TYPE_BOUND [name_node] :: TTok PLUS :: bs).
  Proof. intros HB gs rest l kids stk sp. init. go bounds_body. unfold type_bound. st. use HB. done_. Qed.

  Lemma a_type_param : s_type_param t [TNode TYPE_PARAM [name_node]].
  Proof. intros gs rest l kids stk sp. init. unfold generic_param. st. unfold type_param. st. done_. Qed.
  Lemma a_type_param_bounds bs : s_bounds t bs ->
    s_type_param t [TNode TYPE_PARAM [name_node; TTok COLON; TNode TYPE_BOUND_LIST bs]].
  Proof.
    intros HB gs rest l kids stk sp. init. unfold generic_param. st. unfold type_param. st. unfold bounds. st.
    unfold bounds_without_colon. st. unfold bounds_without_colon_m. st. use HB. st. done_.
  Qed.
  Lemma a_type_params_nil : s_type_params t [].
  Proof. intros gs rest l kids stk sp. init. go generic_params_body. done_. Qed.
  Lemma a_type_params_last e : starts [IDENT] [e] -> s_type_param t [e] -> s_type_params t [e].
  Proof.
    intros S1 HE gs rest l kids stk sp. init. first_off [GT; EOF]. go generic_params_body. use HE. st.
    go generic_params_body. done_.
  Qed.
  Lemma a_type_params_more e r : starts [IDENT] [e] -> s_type_param t [e] -> s_type_params t r ->
    s_type_params t (e :: TTok COMMA :: r).
  Proof.
    intros S1 HE HR gs rest l kids stk sp. init. first_off [GT; EOF]. go generic_params_body. use HE. st. use HR. done_.
  Qed.

  Lemma a_struct g b : s_generics t g -> s_struct_body t b -> s_opt_item t [TNode STRUCT (TTok STRUCT_KW :: name_node :: g ++ b)].
  Proof.
    intros [-> | (ps & -> & HP)] [-> | (fs & -> & HF)] gs rest l kids stk sp m; init; unfold opt_item; st; unfold struct_; st;
      unfold opt_generic_param_list; st; try (unfold generic_param_list; st; use HP; st);
      try (unfold record_field_list; st; use HF; st); st; done_.
  Qed.

  (** *** Functions *)
  Lemma a_param ty : s_type t [ty] -> s_param t [TNode PARAM [name_node; TTok COLON; ty]].
  Proof.
    intros HT gs rest l kids stk sp m. init. unfold param. st. unfold ascription. st. unfold type_. use HT. st. done_.
  Qed.
  Lemma a_params_nil : s_params t [].
  Proof. intros gs rest l kids stk sp. init. go params_body. done_. Qed.
  Lemma a_params_last e : starts [IDENT] [e] -> s_param t [e] -> s_params t [e].
  Proof.
    intros S1 HE gs rest l kids stk sp. init. first_is. go params_body. use HE. st.
    go params_body. done_.
  Qed.
  Lemma a_params_more e r : starts [IDENT] [e] -> s_param t [e] -> s_params t r -> s_params t (e :: TTok COMMA :: r).
  Proof.
    intros S1 HE HR gs rest l kids stk sp. init. first_is. go params_body. use HE. st. use HR. done_.
  Qed.

  Lemma a_block ss : s_stmts t ss -> s_block t [TNode BLOCK_EXPR (TTok L_BRACE :: ss ++ [TTok R_BRACE])].
  Proof.
    intros HS gs rest l kids stk sp. init. unfold block_expr_unchecked. st. unfold block_contents. use HS. st. donec.
  Qed.

  Lemma use_block f gs rest l kids stk sp (Q : _ -> tst -> Prop) :
    s_block t f -> fits f gs -> sp + 5 * size gs + 10 <= 10000 ->
    (forall c sp', sp' + 1 <= sp + 5 * size gs -> Q c (TS rest (Some c) (kids ++ f) stk sp')) ->
    tw block_expr_unchecked (TS (gs ++ rest) l kids stk sp) Q.
  Proof.
    intros H F L HQ. eapply tw_mono; [apply H; assumption|]. intros c st' (sp' & -> & B). apply HQ. exact B.
  Qed.

  Lemma a_function ps r b : s_params t ps -> s_ret t r -> starts [L_BRACE] [b] -> s_block t [b] ->
    s_opt_item t [TNode FUNCTION_DEF (TTok FUN_KW :: name_node ::
      TNode PARAM_LIST (TTok L_PAREN :: ps ++ [TTok R_PAREN]) :: r ++ [b])].
  Proof.
    intros HP [-> | (ty & -> & HT)] S1 HB gs rest l kids stk sp m; init; unfold opt_item; st; unfold function_def; st;
      unfold param_list; st; use HP; st; unfold opt_ret_type.
    - first_is. st. unfold block_expr. st. eapply use_block; [exact HB|assumption|lia|]. intros ? ? ?. st. done_.
    - st. unfold type_. use HT; [first_is; fol|]. first_is. st. unfold block_expr. st.
      eapply use_block; [exact HB|assumption|lia|]. intros ? ? ?. st. done_.
  Qed.


  (** *** Items, modules and files *)
  Lemma a_item x : s_opt_item t [x] -> s_item t [x].
  Proof. intros HX gs rest l kids stk sp. init. unfold item. st. use HX. st. done_. Qed.

  Lemma a_items_nil : s_items t [].
  Proof. intros gs rest l kids stk sp. init. go items_body. done_. Qed.
  Lemma a_items x f : starts H_item [x] -> s_item t [x] -> (f = [] \/ starts H_item f) -> s_items t f -> s_items t (x :: f).
  Proof.
    intros S1 H1 S2 H2 gs rest l kids stk sp. init. first_off [R_BRACE; EOF]. go items_body.
    use H1; [next_off; fol|]. use H2. done_.
  Qed.

  Lemma r_address_name a gs rest l kids stk sp (Q : _ -> tst -> Prop) : s_address_name [a] -> fits [a] gs -> sp <= 10000 ->
    (forall l' sp', sp' <= sp + 1 -> Q true (TS rest l' (kids ++ [a]) stk sp')) ->
    tw bump_address (TS (gs ++ rest) l kids stk sp) Q.
  Proof.
    intros [E|E] F L HQ; injection E as ->; init; unfold bump_address; st.
    - match goal with |- context [starts_with ?a ?b] => replace (starts_with a b) with true by (symmetry; apply starts_with_spec; eauto) end.
      st. apply HQ. lia.
    - apply HQ. lia.
  Qed.

  Lemma a_module b : s_module_body t b -> s_module t [TNode MODULE_DEF (TTok MODULE_KW :: name_node :: b)].
  Proof.
    intros [-> | (is & -> & HI)] gs rest l kids stk sp; init; unfold module; st.
    - unfold nth_at. st. apply r_nth1; [lia|left; reflexivity|]. intros y Hy. st.
      rewrite (Hy COLON_COLON ltac:(unfold opens; tauto)). kev. st. done_.
    - unfold nth_at. st. apply r_nth1; [lia|left; reflexivity|]. intros y Hy. st.
      rewrite (Hy COLON_COLON ltac:(unfold opens; tauto)). kev. st. unfold item_list. st. use HI. st. done_.
  Qed.

  Lemma a_module_at a b : s_address_name [a] -> s_module_body t b ->
    s_module t [TNode MODULE_DEF (TTok MODULE_KW :: TNode ADDRESS_IDENT [a] :: TTok COLON_COLON :: name_node :: b)].
  Proof.
    intros HA HB gs rest l kids stk sp. init. unfold module. st. unfold nth_at. st.
    assert (G : exists g, x = [g] /\ (fst (fst g) = IDENT \/ fst (fst g) = INTEGER_NUMBER)).
    { destruct HA as [E|E]; injection E as ->; fitinv; eexists; (split; [reflexivity|]); auto. }
    destruct G as (g & -> & G). cbn [app]. apply r_nth1; [lia|exact G|]. intros y Hy. st.
    rewrite (Hy COLON_COLON ltac:(unfold opens; tauto)). kev. st. unfold address_ident_r. st.
    change (g :: ?r) with ([g] ++ r). eapply r_address_name; [exact HA|assumption|lia|]. intros l' sp' B. st.
    destruct HB as [-> | (is & -> & HI)]; fitinv; sizes; repeat (progress (rewrite <- ?app_assoc; cbn [app])); kev; st.
    - done_.
    - unfold item_list. st. use HI. st. done_.
  Qed.

  Lemma a_modules_nil : s_modules t [].
  Proof. intros gs rest l kids stk sp. init. go address_items_body. done_. Qed.
  Lemma a_modules x f : starts [MODULE_KW] [x] -> s_module t [x] -> s_modules t f -> s_modules t (x :: f).
  Proof.
    intros S1 HX HF gs rest l kids stk sp. init. first_is. go address_items_body. use HX. use HF. done_.
  Qed.

  Lemma a_top_module x : starts [MODULE_KW] [x] -> s_module t [x] -> s_top t [x].
  Proof.
    intros S1 HX gs rest l kids stk sp Q. init. first_is. go root_body. use HX.
    match goal with H : forall _ _, _ -> tw _ _ _ |- _ => apply H end. lia.
  Qed.
  Lemma a_script is : s_items t is ->
    s_top t [TNode SCRIPT_DEF [TTok SCRIPT_KW; TNode ITEM_LIST (TTok L_BRACE :: is ++ [TTok R_BRACE])]].
  Proof.
    intros HI gs rest l kids stk sp Q. init. go root_body. unfold script. st. unfold item_list. st. use HI. st. norm.
    match goal with H : forall _ _, _ -> tw _ _ _ |- _ => apply H end. lia.
  Qed.
  Lemma a_address a ms : s_address_name [a] -> s_modules t ms ->
    s_top t [TNode ADDRESS_DEF [TTok ADDRESS_KW; TNode ADDRESS_IDENT [a];
               TNode ADDRESS_ITEM_LIST (TTok L_BRACE :: ms ++ [TTok R_BRACE])]].
  Proof.
    intros HA HM gs rest l kids stk sp Q. init. go root_body. unfold address. st. unfold address_ident_r. st.
    eapply r_address_name; [exact HA|assumption|lia|]. intros l' sp' B. st. unfold address_item_list. st. use HM. st. norm.
    match goal with H : forall _ _, _ -> tw _ _ _ |- _ => apply H end. 
    asize HA. lia.
  Qed.

  Lemma a_file_nil : s_file t [].
  Proof. intros gs rest l kids stk sp. init. go root_body. done_. Qed.
  Lemma a_file x f : s_top t [x] -> s_file t f -> s_file t (x :: f).
  Proof.
    intros HX HF gs rest l kids stk sp. init. apply HX; [assumption|lia|]. intros l' sp' B. use HF. done_.
  Qed.

  (** *** Patterns *)
  Lemma a_pat_name : s_pattern t [TNode IDENT_PAT [name_node]].
  Proof.
    intros gs rest l kids stk sp. init. go pattern_body. apply r_nth1; [lia|left; reflexivity|]. intros y Hy.
    rewrite (Hy L_BRACE ltac:(unfold opens; tauto)). kev. st. unfold ident_pat. st. done_.
  Qed.
  Lemma a_pat_mut : s_pattern t [TNode IDENT_PAT [TTok MUT_KW; name_node]].
  Proof. intros gs rest l kids stk sp. init. go pattern_body. unfold ident_pat. st. done_. Qed.
  Lemma a_pat_record fs : s_field_pats t fs ->
    s_pattern t [TNode RECORD_PAT [TNode PATH [segment_node];
                   TNode RECORD_PAT_FIELD_LIST (TTok L_BRACE :: fs ++ [TTok R_BRACE])]].
  Proof.
    intros HF gs rest l kids stk sp. init. go pattern_body. apply r_nth1; [lia|left; reflexivity|]. intros y Hy.
    rewrite (Hy L_BRACE ltac:(unfold opens; tauto)). kev. st. unfold path_pat. st. unfold is_path_start. st.
    unfold expr_path.
    match goal with |- ParserTotal.tw _ _ (TS (?g :: ?r) _ _ _ _) _ => change (g :: r) with ([g] ++ r) end.
    eapply r_path; [exact a_path_name|repeat constructor|fol|cbn; lia|]. intros l' sp' B. cbn in B. st.
    unfold record_pat_field_list. st. use HF. st. done_.
  Qed.
  Lemma a_field_pat_short : s_field_pat t [TNode RECORD_PAT_FIELD [TNode IDENT_PAT [name_node]]].
  Proof.
    intros gs rest l kids stk sp. init. unfold record_pat_field. st. apply r_nth1; [lia|left; reflexivity|]. intros y Hy. st.
    rewrite (Hy COLON ltac:(unfold opens; tauto)). kev. st. unfold ident_pat. st. done_.
  Qed.
  Lemma a_field_pat p : s_pattern t [p] -> s_field_pat t [TNode RECORD_PAT_FIELD [name_ref_node; TTok COLON; p]].
  Proof.
    intros HP gs rest l kids stk sp. init. unfold record_pat_field. st. apply r_nth1; [lia|left; reflexivity|]. intros y Hy. st.
    rewrite (Hy COLON ltac:(unfold opens; tauto)). kev. st. unfold pattern. use HP. st. done_.
  Qed.
  Lemma a_field_pats_nil : s_field_pats t [].
  Proof. intros gs rest l kids stk sp. init. go record_pat_fields_body. done_. Qed.
  Lemma a_field_pats_last e : starts [IDENT] [e] -> s_field_pat t [e] -> s_field_pats t [e].
  Proof.
    intros S1 HE gs rest l kids stk sp. init. first_is. go record_pat_fields_body. use HE. st.
    go record_pat_fields_body. done_.
  Qed.
  Lemma a_field_pats_more e r : starts [IDENT] [e] -> s_field_pat t [e] -> s_field_pats t r ->
    s_field_pats t (e :: TTok COMMA :: r).
  Proof.
    intros S1 HE HR gs rest l kids stk sp. init. first_is. go record_pat_fields_body. use HE. st. use HR. done_.
  Qed.

  Lemma a_patterns_nil : s_patterns t [].
  Proof.
    intros gs rest l kids stk sp c p. init. go tuple_pat_body. cbn [length Nat.ltb Nat.leb]. rewrite !orb_false_r.
    split; [reflexivity|]. done_.
  Qed.
  Lemma ts_pat k : In k H_pat -> ts_has PATTERN_FIRST k = true.
  Proof. cbn [In H_pat]. intros [<- |[<- |[<- |[<- |[]]]]]; vm_compute; reflexivity. Qed.
  Lemma first_in ks f gs rest : starts ks f -> fits f gs -> ~ In DIEM_ADDRESS ks -> In (gcur (gs ++ rest)) ks.
  Proof.
    intros (k & r & E & Hk) F N. unfold fits in F. rewrite E in F. inversion F as [|? g ? gs' S F']; subst. cbn [app gcur].
    assert (X : fst (fst g) = k) by (destruct k; try exact S; contradiction). rewrite X. exact Hk.
  Qed.
  Lemma a_patterns_last e : starts H_pat [e] -> s_pattern t [e] -> s_patterns t [e].
  Proof.
    intros S1 HE gs rest l kids stk sp c p. init. first_off [R_PAREN; EOF; DOTDOT].
    pose proof (ts_pat _ (first_in _ _ _ rest S1 H ltac:(cbn; intuition discriminate))) as T.
    go tuple_pat_body. rewrite T. kev. st. cbv zeta. unfold pattern. st. use HE. st. go tuple_pat_body.
    cbn [length Nat.ltb Nat.leb]. rewrite orb_true_r, !orb_false_r. split; [reflexivity|]. done_.
  Qed.
  Lemma a_patterns_more e r : starts H_pat [e] -> s_pattern t [e] -> s_patterns t r -> s_patterns t (e :: TTok COMMA :: r).
  Proof.
    intros S1 HE HR gs rest l kids stk sp c p. init. first_off [R_PAREN; EOF; DOTDOT].
    match goal with F : fits [e] ?g |- context [?g ++ ?r] =>
      pose proof (ts_pat _ (first_in _ _ _ r S1 F ltac:(cbn; intuition discriminate))) as T end.
    go tuple_pat_body. rewrite T. kev. st. cbv zeta. unfold pattern. st. use HE. st.
    eapply tw_mono; [apply HR; [assumption|assumption|lia]|]. intros a st' (-> & l0' & sp0 & -> & B).
    cbn [length Nat.ltb Nat.leb]. rewrite !orb_true_r, !orb_true_l. split; [reflexivity|]. done_.
  Qed.
  Lemma a_pat_tuple ps : s_patterns t ps ->
    s_pattern t [TNode (if Nat.eqb (length ps) 1 then PAREN_PAT else TUPLE_PAT) (TTok L_PAREN :: ps ++ [TTok R_PAREN])].
  Proof.
    intros HP gs rest l kids stk sp. init. go pattern_body. unfold tuple_pat. st.
    eapply tw_mono; [apply HP; [assumption|reflexivity|lia]|]. intros a st' (-> & l0' & sp0 & -> & B). st.
    assert (E : (if negb (false || Nat.ltb 1 (length ps)) && negb false && (false || Nat.ltb 0 (length ps)) then PAREN_PAT else TUPLE_PAT)
      = if Nat.eqb (length ps) 1 then PAREN_PAT else TUPLE_PAT).
    { destruct ps as [|? [|? ?]]; reflexivity. }
    rewrite E. apply r_complete; [destruct (Nat.eqb _ _); discriminate|]. intros c. cbn [opt_tree app]. st. done_.
  Qed.

  (** *** Expressions *)
  Lemma a_literal k : In k [TRUE_KW; FALSE_KW; INTEGER_NUMBER; BYTE_STRING] -> s_atom t [TNode LITERAL [TTok k]].
  Proof.
    cbn [In]. intros [<- |[<- |[<- |[<- |[]]]]] gs rest l kids stk sp; init; unfold atom_expr; st; unfold literal; st;
      (eexists; split; [reflexivity|donec]).
  Qed.
  Lemma a_address_lit a : s_address_name [a] -> s_atom t [TNode LITERAL [TNode ADDRESS_LIT [TTok ATSIGN; a]]].
  Proof.
    intros HA gs rest l kids stk sp. init. unfold atom_expr. st. unfold literal. st. unfold address_lit. st.
    eapply r_address_name; [exact HA|assumption|lia|]. intros ? ? ?. st. eexists. split; [reflexivity|].
    asize HA. donec.
  Qed.
  Lemma a_path_expr p : starts [IDENT] [p] -> s_path t [p] -> s_atom t [TNode PATH_EXPR [p]].
  Proof.
    intros S1 HP gs rest l kids stk sp. init. first_is. unfold atom_expr. st. unfold literal. st.
    unfold path_expr. st. unfold is_path_start. st. unfold expr_path.
    eapply r_path; [exact HP|assumption|fol|lia|]. intros ? ? ?. st. eexists. split; [reflexivity|]. donec.
  Qed.
  Lemma a_record p fs : starts [IDENT] [p] -> s_path t [p] -> s_inits t fs ->
    s_atom t [TNode RECORD_EXPR [p; TNode RECORD_EXPR_FIELD_LIST (TTok L_BRACE :: fs ++ [TTok R_BRACE])]].
  Proof.
    intros S1 HP HF gs rest l kids stk sp. init. first_is. unfold atom_expr. st. unfold literal. st.
    unfold path_expr. st. unfold is_path_start. st. unfold expr_path.
    eapply r_path; [exact HP|assumption|fol|lia|]. intros ? ? ?. st. unfold record_expr_field_list. st. use HF. st.
    eexists. split; [reflexivity|]. donec.
  Qed.
  Lemma a_block_expr b : starts [L_BRACE] [b] -> s_block t [b] -> s_atom t [b].
  Proof.
    intros S1 HB gs rest l kids stk sp. init. first_is. unfold atom_expr. st. unfold literal. st.
    eapply use_block; [exact HB|assumption|lia|]. intros ? ? ?. st. eexists. split; [reflexivity|]. donec.
  Qed.

  Lemma loop_stop bp c st (Q : _ -> tst -> Prop) : 1 <= bp -> (forall q, prec (gcur (s_toks st)) = Some q -> q < bp) ->
    Q (Some c) st -> tw (call (F_expr_bp_loop bp c)) st Q.
  Proof.
    intros L H HQ. tcall. cbn [body]. unfold expr_bp_loop_body, current_op. st1. st1. destruct st as [gs l ks stk sp].
    cbn [s_toks] in *. st. rewrite op_prec. cbv zeta.
    destruct (prec (gcur gs)) as [q|] eqn:E; cbn [fst snd].
    - specialize (H _ eq_refl). destruct (q <? bp) eqn:X; [|lia]. st. exact HQ.
    - destruct (0 <? bp) eqn:X; [|lia]. st. exact HQ.
  Qed.

  (** a whole expression *)
  Lemma r_expr e gs rest l kids stk sp (Q : _ -> tst -> Prop) : s_expr t 1 [e] -> fits [e] gs -> ends (gcur rest) ->
    sp + 5 * size gs + 10 <= 10000 ->
    (forall c sp', sp' <= sp + 5 * size gs -> Q (Some c) (TS rest (Some c) (kids ++ [e]) stk sp')) ->
    tw expr (TS (gs ++ rest) l kids stk sp) Q.
  Proof.
    intros HE F N L HQ. destruct (ends_off _ N) as [O P]. unfold expr.
    apply (HE 1); [lia|lia|exact F|exact O|intros q E; congruence|exact L|]. intros c sp' B.
    apply loop_stop; [lia|cbn [s_toks]; congruence|]. apply HQ. exact B.
  Qed.
  Ltac useexpr H := eapply r_expr; [exact H|eassumption|endk|lia|intros ? ? ?; cbv beta].

  Lemma a_paren e : starts H_expr [e] -> s_expr t 1 [e] -> s_atom t [TNode PAREN_EXPR [TTok L_PAREN; e; TTok R_PAREN]].
  Proof.
    intros S1 HE gs rest l kids stk sp. init. unfold atom_expr. st. unfold literal. st. unfold paren_expr. st.
    first_off [EOF; R_PAREN]. go paren_body. useexpr HE. go paren_body. eexists. split; [reflexivity|]. donec.
  Qed.
  Lemma a_unit : s_atom t [TNode PAREN_EXPR [TTok L_PAREN; TTok R_PAREN]].
  Proof.
    intros gs rest l kids stk sp. init. unfold atom_expr. st. unfold literal. st. unfold paren_expr. st.
    go paren_body. eexists. split; [reflexivity|]. donec.
  Qed.

  Lemma a_args_nil : s_args t [].
  Proof. intros gs rest l kids stk sp. init. go args_body. done_. Qed.
  Lemma a_args_last e : starts H_expr [e] -> s_expr t 1 [e] -> s_args t [e].
  Proof.
    intros S1 HE gs rest l kids stk sp. init. first_off [EOF; R_PAREN]. go args_body. useexpr HE. st. go args_body. done_.
  Qed.
  Lemma a_args_more e r : starts H_expr [e] -> s_expr t 1 [e] -> s_args t r -> s_args t (e :: TTok COMMA :: r).
  Proof.
    intros S1 HE HR gs rest l kids stk sp. init. first_off [EOF; R_PAREN]. go args_body. useexpr HE. st. use HR. done_.
  Qed.

  Lemma a_postfix_atom e : s_atom t [e] -> s_postfix t [e].
  Proof.
    intros HE gs rest l kids stk sp Q F O L HQ. eapply tw_mono; [apply HE; assumption|].
    intros a st' (c & -> & sp' & -> & B). apply HQ. lia.
  Qed.
  Lemma a_call e args : s_postfix t [e] -> s_args t args ->
    s_postfix t [TNode CALL_EXPR [e; TNode ARG_LIST (TTok L_PAREN :: args ++ [TTok R_PAREN])]].
  Proof.
    intros HE HA gs rest l kids stk sp Q. init. apply HE; [assumption|fol|lia|]. intros c sp' B. go postfix_body.
    unfold call_expr. st. apply r_precede. intros m. st. unfold arg_list. st. use HA. st.
    match goal with H : forall _ _, _ -> tw _ _ _ |- _ => apply H end. lia.
  Qed.
  Lemma a_dot e : s_postfix t [e] -> s_postfix t [TNode DOT_EXPR [e; TTok DOT; name_ref_node]].
  Proof.
    intros HE gs rest l kids stk sp Q. init. apply HE; [assumption|fol|lia|]. intros c sp' B. go postfix_body.
    unfold field_expr. st. apply r_precede. intros m. st.
    match goal with H : forall _ _, _ -> tw _ _ _ |- _ => apply H end. lia.
  Qed.

  Lemma a_unary_postfix e : starts H_atom [e] -> s_postfix t [e] -> s_unary t [e].
  Proof.
    intros S1 HE bp gs rest l kids stk sp Q. init. first_off [STAR; BANG; MINUS]. tcall. cbn [body]. unfold expr_bp_body. st.
    unfold lhs_. st.
    eapply tw_mono; [apply HE with (Q := fun c st => exists sp', st = TS rest (Some c) (kids ++ [e]) stk sp' /\ sp' <= sp + 5 * size gs);
      [assumption|fol|lia|]|].
    - intros c sp' B. go postfix_body. exists sp'. auto.
    - intros [c|] st' X; [|contradiction]. st. eapply tw_mono; [exact X|]. intros d st2 (sp' & -> & B). st.
      match goal with H : forall _ _, _ -> tw _ _ _ |- _ => apply H end. lia.
  Qed.
  Lemma a_unary op u : In op [STAR; BANG; MINUS] -> s_unary t [u] -> s_unary t [TNode PREFIX_EXPR [TTok op; u]].
  Proof.
    intros Ho HU bp gs rest l kids stk sp Q.
    cbn [In] in Ho. destruct Ho as [<- |[<- |[<- |[]]]]; init; tcall; cbn [body]; unfold expr_bp_body; st; unfold lhs_; st;
      (eapply (HU 255); [eassumption|fol|exact I|lia|]; intros c sp' B;
       apply loop_stop; [lia|intros q E; apply prec_pos in E; lia|]; st;
       match goal with H : forall _ _, _ -> tw _ _ _ |- _ => apply H end; lia).
  Qed.

  Lemma a_expr_unary p u : s_unary t [u] -> s_expr t p [u].
  Proof. intros HU bp L1 L2 gs rest l kids stk sp Q F O W L HQ. apply (HU bp); auto. exact I. Qed.
  Lemma a_expr_bin p q le op r : prec op = Some q -> p <= q -> s_expr t q [le] -> s_expr t (q + 1) [r] ->
    s_expr t p [TNode BIN_EXPR [le; TTok op; r]].
  Proof.
    intros P Lq HL HR bp L1 L2 gs rest l kids stk sp Q F O W L HQ.
    assert (G : exists g1 g2 w tr, gs = g1 ++ (op, w, tr) :: g2 /\ fits [le] g1 /\ fits [r] g2).
    { unfold fits in F. cbn [flat_map leaves app] in F. rewrite !app_nil_r in F.
      apply fits_app in F as (g1 & g2 & F1 & F2 & ->). inversion F2 as [|? g ? g3 S F3]; subst. destruct g as [[k w] tr].
      assert (k = op) by (destruct op; try discriminate P; exact S). subst k. exists g1, g3, w, tr.
      split; [reflexivity|]. split; apply fits_one; assumption. }
    destruct G as (g1 & g2 & w & tr & -> & F1 & F2). sizes. rewrite <- app_assoc. cbn [app].
    destruct (prec_pos _ _ P) as [P1 P2].
    assert (X : off expr_end op) by (destruct op; try discriminate P; reflexivity).
    apply (HL bp); [lia|lia|exact F1|exact X|unfold weak; cbn [gcur fst]; intros q' E; rewrite P in E; injection E as ->; lia|lia|]. intros c sp' B.
    tcall. cbn [body]. unfold expr_bp_loop_body, current_op. st. rewrite op_prec, P. cbv zeta. cbn [fst snd].
    destruct (q <? bp) eqn:Y; [lia|]. st. apply r_precede. intros m. st.
    apply r_bump; [lia|cbn [fst]; apply kind_eqb_refl|]. cbv beta. st.
    apply (HR (q + 1)); [lia|lia|exact F2|exact O|intros q' E; specialize (W _ E); lia|lia|]. intros d sp'' B'.
    apply loop_stop; [lia|cbn [s_toks]; intros q' E; specialize (W _ E); lia|]. st. apply HQ. lia.
  Qed.

  Lemma a_inits_nil : s_inits t [].
  Proof. intros gs rest l kids stk sp. init. go record_expr_fields_body. done_. Qed.
  Lemma a_inits_last e : s_field_init t [e] -> s_inits t [e].
  Proof.
    intros [[E HE]|(x & E & HE)] gs rest l kids stk sp; injection E as ->.
    - intros F N L. assert (G : exists w tr, gs = [(IDENT, w, tr)]) by (fitinv; eauto). destruct G as (w & tr & ->). sizes. cbn [app].
      offs. go record_expr_fields_body. unfold nth_at. st. apply r_nth1; [lia|left; reflexivity|]. intros y Hy. st.
      rewrite (Hy COLON ltac:(unfold opens; tauto)). kev. st.
      change ((IDENT, w, tr) :: rest) with ([(IDENT, w, tr)] ++ rest).
      eapply r_expr; [exact HE|repeat constructor|endk|cbn; lia|]. intros c sp' B. cbn in B. st. go record_expr_fields_body. done_.
    - init. go record_expr_fields_body. unfold nth_at. st. apply r_nth1; [lia|left; reflexivity|]. intros y Hy. st.
      rewrite (Hy COLON ltac:(unfold opens; tauto)). kev. st. useexpr HE. st. go record_expr_fields_body. done_.
  Qed.
  Lemma a_inits_more e r : s_field_init t [e] -> s_inits t r -> s_inits t (e :: TTok COMMA :: r).
  Proof.
    intros [[E HE]|(x & E & HE)] HR gs rest l kids stk sp; injection E as ->.
    - intros F N L.
      assert (G : exists w tr w2 tr2 gs', gs = (IDENT, w, tr) :: (COMMA, w2, tr2) :: gs' /\ fits r gs') by (fitinv; eauto 10).
      destruct G as (w & tr & w2 & tr2 & gs' & -> & F'). sizes. cbn [app].
      offs. go record_expr_fields_body. unfold nth_at. st. apply r_nth1; [lia|left; reflexivity|]. intros y Hy. st.
      rewrite (Hy COLON ltac:(unfold opens; tauto)). kev. st.
      match goal with |- ParserTotal.tw _ _ (TS (?g :: ?r) _ _ _ _) _ => change (g :: r) with ([g] ++ r) end.
      eapply r_expr; [exact HE|repeat constructor|endk|cbn; lia|]. intros c sp' B. cbn in B. st. use HR. done_.
    - init. go record_expr_fields_body. unfold nth_at. st. apply r_nth1; [lia|left; reflexivity|]. intros y Hy. st.
      rewrite (Hy COLON ltac:(unfold opens; tauto)). kev. st. useexpr HE. st. use HR. done_.
  Qed.

  (** *** Statements *)
  Lemma a_stmts_nil : s_stmts t [].
  Proof. intros gs rest l kids stk sp. init. go block_contents_body. done_. Qed.
  Lemma a_stmts_expr e ss : starts H_expr [e] -> s_expr t 1 [e] -> s_stmts t ss ->
    s_stmts t (TNode EXPR_STMT [e; TTok SEMICOLON] :: ss).
  Proof.
    intros S1 HE HS gs rest l kids stk sp. init. first_off [R_BRACE; EOF; LET_KW]. go block_contents_body. unfold stmt. st.
    useexpr HE. st. unfold stmt_semi. st. use HS. done_.
  Qed.
  Lemma a_stmts_last e : starts H_expr [e] -> s_expr t 1 [e] -> s_stmts t [TNode EXPR_STMT [e]].
  Proof.
    intros S1 HE gs rest l kids stk sp. init. first_off [R_BRACE; EOF; LET_KW]. go block_contents_body. unfold stmt. st.
    useexpr HE. st. unfold stmt_semi. st. go block_contents_body. done_.
  Qed.
  Lemma a_stmts_let lt ss : s_let t lt -> s_stmts t ss -> s_stmts t (TNode LET_STMT (lt ++ [TTok SEMICOLON]) :: ss).
  Proof.
    intros (p & a & i & -> & HP & HA & HI) HS gs rest l kids stk sp.
    destruct HA as [-> | (ty & -> & HT)]; destruct HI as [-> | (e & -> & HE)]; cbn [app]; init;
      go block_contents_body; unfold stmt; st; unfold let_stmt; st; unfold pattern; use HP; st;
      try (unfold ascription; st; unfold type_; use HT; st); try (useexpr HE; st); unfold stmt_semi; st; use HS; done_.
  Qed.
End Text.

(** ** Every phrase *)
Definition heads (x : nt) : list kind :=
  match x with
  | Item | Function | Struct => H_item
  | Module => [MODULE_KW]
  | Path_ | Field | TypeParam | Param | FieldPat => [IDENT]
  | Type_ => [IDENT; AMP]
  | Block => [L_BRACE]
  | Pattern_ => H_pat
  | Expr _ | Unary => H_expr
  | Postfix | Atom => H_atom
  | _ => []
  end.

Lemma starts_node ks k x r : starts ks [x] -> starts ks [TNode k (x :: r)].
Proof.
  intros (h & l & E & H). cbn [flat_map] in E. rewrite app_nil_r in E. exists h.
  eexists. split; [|exact H]. cbn [flat_map leaves]. rewrite E, app_nil_r. reflexivity.
Qed.
Lemma starts_more ks ks' f : starts ks f -> incl ks ks' -> starts ks' f.
Proof. intros (h & l & E & H) I. exists h, l. auto. Qed.
Lemma starts_cons ks x f : starts ks [x] -> starts ks (x :: f).
Proof.
  intros (h & l & E & H). cbn [flat_map] in E. rewrite app_nil_r in E. exists h. eexists. split; [|exact H].
  cbn [flat_map]. rewrite E. reflexivity.
Qed.

Lemma gen_starts x f : gen x f -> match x with Items => f = [] \/ starts H_item f | _ => heads x <> [] -> starts (heads x) f end.
Proof.
  induction 1; cbn [heads] in *; try (intros X; exfalso; apply X; reflexivity);
    try (intros _; match goal with
    | |- starts _ [TNode _ (TTok ?k :: _)] => exists k; eexists; split; [reflexivity|cbn; tauto]
    | |- starts _ [TNode _ [_; _; _]] => exists IDENT; eexists; split; [reflexivity|cbn; tauto]
    | |- starts _ [TNode _ [TNode _ (TTok ?k :: _)]] => exists k; eexists; split; [reflexivity|cbn; tauto]
    end).
  all: try (intros _; first
    [ assumption
    | apply IHgen; discriminate
    | apply starts_node; apply IHgen; discriminate
    | apply starts_node; apply IHgen1; discriminate
    | eexists _, _; split; [reflexivity|cbn; tauto] ]).
  - left. reflexivity.
  - right. apply starts_cons. apply IHgen1. discriminate.
  - intros _. apply starts_node. eapply starts_more; [apply IHgen; discriminate|]. intros ? [<- |[]]. cbn. tauto.
  - intros _. exists op. eexists. split; [reflexivity|]. cbn in *. tauto.
  - intros _. eapply starts_more; [apply IHgen; discriminate|]. apply incl_appr, incl_refl.
  - intros _. exists k. eexists. split; [reflexivity|]. cbn in *. tauto.
  - intros _. apply starts_node. eapply starts_more; [apply IHgen; discriminate|]. intros ? [<- |[]]. cbn. tauto.
  - intros _. apply starts_node. eapply starts_more; [apply IHgen1; discriminate|]. intros ? [<- |[]]. cbn. tauto.
  - intros _. eapply starts_more; [apply IHgen; discriminate|]. intros ? [<- |[]]. cbn. tauto.
Qed.

Lemma gen_head x f : gen x f -> heads x <> [] -> x <> Items -> starts (heads x) f.
Proof. intros G H N. pose proof (gen_starts _ _ G) as S. destruct x; auto. contradiction. Qed.

Lemma commas_nil t x : s_commas t x [].
Proof.
  destruct x; try exact I; cbn [s_commas];
    [apply a_fields_nil|apply a_type_params_nil|apply a_params_nil|apply a_patterns_nil|apply a_field_pats_nil
    |intros _; apply a_args_nil|apply a_inits_nil].
Qed.
Lemma commas_last t x e : gen x [e] -> stm t x [e] -> s_commas t x [e].
Proof.
  intros G H. destruct x; try exact I; cbn [s_commas stm] in *;
    try (pose proof (gen_head _ _ G ltac:(discriminate) ltac:(discriminate)) as S; cbn [heads] in S).
  - apply a_fields_last; assumption.
  - apply a_type_params_last; assumption.
  - apply a_params_last; assumption.
  - apply a_patterns_last; assumption.
  - apply a_field_pats_last; assumption.
  - intros ->. apply a_args_last; assumption.
  - apply a_inits_last; assumption.
Qed.
Lemma commas_more t x e r : gen x [e] -> stm t x [e] -> s_commas t x r -> s_commas t x (e :: TTok COMMA :: r).
Proof.
  intros G H HR. destruct x; try exact I; cbn [s_commas stm] in *;
    try (pose proof (gen_head _ _ G ltac:(discriminate) ltac:(discriminate)) as S; cbn [heads] in S).
  - apply a_fields_more; assumption.
  - apply a_type_params_more; assumption.
  - apply a_params_more; assumption.
  - apply a_patterns_more; assumption.
  - apply a_field_pats_more; assumption.
  - intros ->. apply a_args_more; auto.
  - apply a_inits_more; assumption.
Qed.

Theorem gen_stm t x f : gen x f -> stm t x f.
Proof.
  induction 1; cbn [stm s_commas] in *;
    repeat match goal with G : gen ?x [?e] |- _ =>
      match goal with S : starts _ [e] |- _ => fail 1 | _ => idtac end;
      let S := fresh "S" in
      pose proof (gen_head _ _ G ltac:(discriminate) ltac:(discriminate)) as S; cbn [heads] in S end.
  - apply a_file_nil.
  - apply a_file; assumption.
  - apply a_top_module; assumption.
  - apply a_script; assumption.
  - apply a_address; assumption.
  - apply a_modules_nil.
  - apply a_modules; assumption.
  - apply a_module; assumption.
  - apply a_module_at; assumption.
  - right. eauto.
  - left. reflexivity.
  - left. reflexivity.
  - right. reflexivity.
  - apply a_items_nil.
  - apply a_items; try assumption. exact (gen_starts _ _ H0).
  - apply a_item; assumption.
  - apply a_item; assumption.
  - apply a_struct; assumption.
  - right. eauto.
  - left. reflexivity.
  - apply a_field; assumption.
  - left. reflexivity.
  - right. eauto.
  - apply a_type_param.
  - apply a_type_param_bounds; assumption.
  - apply a_bounds_one.
  - apply a_bounds_more; assumption.
  - apply a_function; assumption.
  - apply a_param; assumption.
  - left. reflexivity.
  - right. eauto.
  - apply a_type_path; assumption.
  - apply a_type_ref; assumption.
  - apply a_type_ref_mut; assumption.
  - apply a_path_name.
  - apply a_path; assumption.
  - apply a_block; assumption.
  - apply a_stmts_nil.
  - apply a_stmts_expr; assumption.
  - apply a_stmts_last; assumption.
  - apply a_stmts_let; assumption.
  - exists p, a, i. auto.
  - left. reflexivity.
  - right. eauto.
  - left. reflexivity.
  - right. eauto.
  - apply a_pat_name.
  - apply a_pat_mut.
  - apply a_pat_record; assumption.
  - apply (a_pat_tuple t [p]). apply a_patterns_last; assumption.
  - pose proof (a_pat_tuple t ps IHgen) as X. apply Nat.eqb_neq in H0. rewrite H0 in X. exact X.
  - apply a_field_pat_short.
  - apply a_field_pat; assumption.
  - apply a_expr_unary; assumption.
  - eapply a_expr_bin; eassumption.
  - apply a_unary; assumption.
  - apply a_unary_postfix; assumption.
  - apply a_postfix_atom; assumption.
  - apply a_call; auto.
  - apply a_dot; assumption.
  - apply a_literal; assumption.
  - apply a_address_lit; assumption.
  - apply a_path_expr; assumption.
  - apply a_record; assumption.
  - apply a_paren; assumption.
  - apply a_unit.
  - apply a_block_expr; assumption.
  - left. split; [reflexivity|]. apply a_expr_unary, a_unary_postfix; [|apply a_postfix_atom, a_path_expr; [|apply a_path_name]];
      exists IDENT; eexists; (split; [reflexivity|cbn; tauto]).
  - right. eauto.
  - apply commas_nil.
  - apply commas_last; assumption.
  - apply commas_more; assumption.
Qed.
