(** A token the grammar has no use for between items: the parser reports it
    without reading it, until it gives up. *)
From Coq Require Import String.
From Verif Require Import Base BaseProofs Kinds KindsProofs LexSpec TokenSet Lexer LexerRuns LexerProofs LexerStateProofs
  Parser Grammar Sink TreeSpec GreenSpec ParserLogic GrammarProofs ParseProofs TermProofs ParserTotal SyntaxSpec AcceptRules AcceptProofs AcceptTop
  LimitProofs UnknownSpec.
Local Open Scope N_scope.

Section Text.
  Variable t : text.
  Notation ow := (ow t).
  Notation tw := (tw t).
  Definition never {A} : A -> tst -> Prop := fun _ _ => False.

  Lemma ow_mono {A} (p : prog A) st (Q R : A -> tst -> Prop) : ow p st Q -> (forall a s, Q a s -> R a s) -> ow p st R.
  Proof. intros H I s S. destruct (H s S) as [n [P|(a & s' & st' & E & R' & X)]]; exists n; [auto|right]. exists a, s', st'. auto. Qed.

  Lemma tw_err msg gs l ks stk sp (Q : unit -> tst -> Prop) :
    Q tt (TS gs None (ks ++ [TErr msg]) stk sp) -> tw (error msg) (TS gs l ks stk sp) Q.
  Proof.
    intros H s R. exists O. unfold error, do_. cbn [interp exec bind]. eexists tt, _, _.
    split; [reflexivity|]. split; [|exact H].
    destruct R. cbn [s_toks s_last s_kids s_stack s_spent] in *.
    constructor; cbn [push_event ps_lexer ps_events ps_steps s_toks s_last s_kids s_stack s_spent]; auto.
    - apply lay_app; [assumption|]. constructor. constructor.
    - exact I.
  Qed.

  (** one step of a run that may fail an assertion *)
  Ltac ost1 := match goal with
    | |- LimitProofs.ow _ (pbind _ _) _ _ => apply ow_bind
    | |- LimitProofs.ow _ (if true then _ else _) _ _ => cbv iota
    | |- LimitProofs.ow _ (if false then _ else _) _ _ => cbv iota
    | |- LimitProofs.ow _ (if _ then _ else _) _ _ => progress cbn [negb andb orb]
    | |- LimitProofs.ow _ (error _) _ _ => apply ow_tw; apply tw_err
    | |- LimitProofs.ow _ (orp _ _) _ _ => unfold orp
    | |- LimitProofs.ow _ (at_ _) _ _ => apply o_at; kev
    | |- LimitProofs.ow _ ?p _ _ => apply ow_tw; st1; st
    end.
  Ltac ost := repeat ost1.
  (** a whole phrase *)
  Ltac ouse H := apply ow_tw; use H.

  (** ** Stuck loops *)
  Lemma limit_at k gs l ks stk sp (Q : bool -> tst -> Prop) : 10000 < sp -> ow (at_ k) (TS gs l ks stk sp) Q.
  Proof.
    intros L s R. exists O. left. unfold at_, nth_at, nth_, do_. cbn [pbind interp].
    rewrite (nth_limit t 0 s _ ltac:(lia) R); [reflexivity|]. cbn [s_spent]. lia.
  Qed.

  Lemma items_stuck g gs : off [FUN_KW; STRUCT_KW; R_BRACE; SEMICOLON] (fst (fst g)) -> fst (fst g) <> EOF ->
    forall n l ks stk sp, 10000 < sp + N.of_nat n -> ow (call F_items) (TS (g :: gs) l ks stk sp) never.
  Proof.
    intros O E. assert (E2 : kind_eqb (fst (fst g)) EOF = false).
    { destruct (kind_eqb (fst (fst g)) EOF) eqn:X; [|reflexivity]. apply kind_eqb_eq in X. contradiction. }
    offs. induction n as [|n IH]; intros l ks stk sp L; apply (ow_call t F_items); cbn [body]; unfold items_body, orp.
    - apply ow_bind, ow_bind. apply limit_at. lia.
    - ost. unfold Grammar.item. ost. unfold opt_item. ost. apply IH. lia.
  Qed.

  Lemma root_stuck g gs : off [MODULE_KW; SCRIPT_KW; ADDRESS_KW] (fst (fst g)) -> fst (fst g) <> EOF -> is_trivia (fst (fst g)) = false ->
    forall n l ks stk sp, 10000 < sp + N.of_nat n -> ow (call F_root) (TS (g :: gs) l ks stk sp) never.
  Proof.
    intros O E T. assert (E2 : kind_eqb (fst (fst g)) EOF = false).
    { destruct (kind_eqb (fst (fst g)) EOF) eqn:X; [|reflexivity]. apply kind_eqb_eq in X. contradiction. }
    offs. induction n as [|n IH]; intros l ks stk sp L; apply (ow_call t F_root); cbn [body]; unfold root_body.
    - apply ow_bind. apply limit_at. lia.
    - ost. rewrite T. ost. apply IH. lia.
  Qed.

  Lemma not_module g gs l ks stk sp (Q : unit -> tst -> Prop) : off [MODULE_KW] (fst (fst g)) -> ow module (TS (g :: gs) l ks stk sp) Q.
  Proof.
    intros O. offs. unfold module. ost1. ost1. ost1. unfold assert_p. ost1. ost1. intros s R.
    exists 0%nat. left. reflexivity.
  Qed.
  Lemma modules_stuck g gs l ks stk sp : off [MODULE_KW; R_BRACE] (fst (fst g)) -> fst (fst g) <> EOF ->
    ow (call F_address_items) (TS (g :: gs) l ks stk sp) never.
  Proof.
    intros O E. assert (E2 : kind_eqb (fst (fst g)) EOF = false).
    { destruct (kind_eqb (fst (fst g)) EOF) eqn:X; [|reflexivity]. apply kind_eqb_eq in X. contradiction. }
    apply (ow_call t F_address_items). cbn [body]. unfold address_items_body. offs. ost.
    apply not_module. unfold off. cbn [existsb]. kev. reflexivity.
  Qed.

  (** ** Complete items *)
  Definition ffits (ks : list kind) (gs : list group) : Prop := Forall2 (fun k g => stands_for k (fst g)) ks gs.

  Lemma o_items is : gen Items is -> forall gs rest l kids stk sp (Q : unit -> tst -> Prop),
    fits is gs -> off [SEMICOLON] (gcur rest) -> sp + 5 * size gs + 13 <= 10000 ->
    (forall l kids sp', sp' <= sp + 5 * size gs -> ow (call F_items) (TS rest l kids stk sp') Q) ->
    ow (call F_items) (TS (gs ++ rest) l kids stk sp) Q.
  Proof.
    intros G. remember Items as x eqn:X. induction G; try discriminate X.
    - intros gs rest l kids stk sp Q. init. match goal with H : forall _ _ _, _ -> _ |- _ => apply H end. lia.
    - intros gs rest l kids stk sp Q. init.
      pose proof (gen_head _ _ G1 ltac:(discriminate) ltac:(discriminate)) as S1. cbn [heads] in S1.
      pose proof (gen_starts _ _ G2) as S2. cbn beta iota in S2.
      pose proof (gen_stm t _ _ G1) as HX. cbn [stm] in HX.
      first_off [R_BRACE; EOF]. apply (ow_call t F_items). cbn [body]. unfold items_body. ost.
      ouse HX; [next_off; fol|]. eapply (IHG2 eq_refl); [eassumption|unfold off; cbn [existsb]; kev; reflexivity|lia|].
      intros ? ? ? ?. match goal with H : forall _ _ _, _ -> _ |- _ => apply H end. lia.
  Qed.

  Lemma o_modules ms : gen Modules ms -> forall gs rest l kids stk sp (Q : unit -> tst -> Prop),
    fits ms gs -> sp + 5 * size gs + 13 <= 10000 ->
    (forall l kids sp', sp' <= sp + 5 * size gs -> ow (call F_address_items) (TS rest l kids stk sp') Q) ->
    ow (call F_address_items) (TS (gs ++ rest) l kids stk sp) Q.
  Proof.
    intros G. remember Modules as x eqn:X. induction G; try discriminate X.
    - intros gs rest l kids stk sp Q. init. match goal with H : forall _ _ _, _ -> _ |- _ => apply H end. lia.
    - intros gs rest l kids stk sp Q. init.
      pose proof (gen_head _ _ G1 ltac:(discriminate) ltac:(discriminate)) as S1. cbn [heads] in S1.
      pose proof (gen_stm t _ _ G1) as HX. cbn [stm] in HX.
      first_is. apply (ow_call t F_address_items). cbn [body]. unfold address_items_body. ost.
      ouse HX. eapply (IHG2 eq_refl); [eassumption|lia|].
      intros ? ? ? ?. match goal with H : forall _ _ _, _ -> _ |- _ => apply H end. lia.
  Qed.

  (** one round of the loop over the file *)
  Lemma o_top x : gen TopItem [x] -> forall gs rest l kids stk sp (Q : unit -> tst -> Prop),
    fits [x] gs -> sp + 5 * size gs + 14 <= 10000 ->
    (forall l kids sp', sp' <= sp + 5 * size gs -> ow (call F_root) (TS rest l kids stk sp') Q) ->
    ow (call F_root) (TS (gs ++ rest) l kids stk sp) Q.
  Proof.
    intros G gs rest l kids stk sp Q. inversion G; subst.
    all: init; apply (ow_call t F_root); cbn [body]; unfold root_body.
    - match goal with G : gen Module [_] |- _ => 
        pose proof (gen_head _ _ G ltac:(discriminate) ltac:(discriminate)) as S1; cbn [heads] in S1;
        pose proof (gen_stm t _ _ G) as HX; cbn [stm] in HX end.
      first_is. ost. ouse HX. match goal with H : forall _ _ _, _ -> _ |- _ => apply H end. lia.
    - match goal with G : gen Items _ |- _ => pose proof (gen_stm t _ _ G) as HX; cbn [stm] in HX end.
      ost. unfold script. ost. unfold item_list. ost. ouse HX. ost.
      match goal with H : forall _ _ _, _ -> _ |- _ => apply H end. lia.
    - match goal with G : gen Modules _ |- _ => pose proof (gen_stm t _ _ G) as HX; cbn [stm] in HX end.
      match goal with G : gen AddressName _ |- _ => pose proof (gen_stm t _ _ G) as HA; cbn [stm] in HA end.
      ost. unfold address. ost. unfold address_ident_r. ost.
      apply ow_tw. eapply r_address_name; [exact HA|eassumption|lia|]. intros l' sp' B. ost.
      unfold address_item_list. ost. ouse HX. ost.
      match goal with H : forall _ _ _, _ -> _ |- _ => apply H end. asize HA. lia.
  Qed.

  Lemma o_file f : gen File f -> forall gs rest l kids stk sp (Q : unit -> tst -> Prop),
    fits f gs -> sp + 5 * size gs + 14 <= 10000 ->
    (forall l kids sp', sp' <= sp + 5 * size gs -> ow (call F_root) (TS rest l kids stk sp') Q) ->
    ow (call F_root) (TS (gs ++ rest) l kids stk sp) Q.
  Proof.
    intros G. remember File as x eqn:X. induction G; try discriminate X; intros gs rest l kids stk sp Q; init.
    - match goal with H : forall _ _ _, _ -> _ |- _ => apply H end. lia.
    - eapply o_top; [eassumption|eassumption|lia|]. intros ? ? ? ?. eapply (IHG2 eq_refl); [eassumption|lia|].
      intros ? ? ? ?. match goal with H : forall _ _ _, _ -> _ |- _ => apply H end. lia.
  Qed.

  (** ** Inside a module, a script or an address *)
  (** from here the loop over the items fails, whatever was spent up to [sp0] *)
  Definition dead_items (rest : list group) (sp0 : N) : Prop := off [SEMICOLON] (gcur rest) /\
    forall l kids stk sp', sp' <= sp0 -> ow (call F_items) (TS rest l kids stk sp') never.

  Lemma bad_in_items g rest sp0 : off [FUN_KW; STRUCT_KW; R_BRACE; SEMICOLON] (fst (fst g)) -> fst (fst g) <> EOF ->
    dead_items (g :: rest) sp0.
  Proof.
    intros B1 B2. split.
    - cbn [gcur]. offs. unfold off. cbn [existsb]. kev. reflexivity.
    - intros l' kids' stk sp' _. apply (items_stuck g rest B1 B2 (N.to_nat 10001)). lia.
  Qed.

  Lemma items_bad is gs rest l kids stk sp sp0 : gen Items is -> fits is gs -> dead_items rest sp0 -> sp + 5 * size gs + 13 <= 10000 ->
    sp + 5 * size gs <= sp0 -> ow (call F_items) (TS (gs ++ rest) l kids stk sp) never.
  Proof.
    intros G F [B1 B2] L M. eapply o_items; [exact G|exact F|exact B1|exact L|]. intros. apply B2. lia.
  Qed.
  Lemma module_bad h is hs gs rest l kids stk sp sp0 : module_head h -> ffits h hs -> gen Items is -> fits is gs -> dead_items rest sp0 ->
    sp + 5 * size gs + 35 <= 10000 -> sp + 5 * size gs + 20 <= sp0 -> ow module (TS (hs ++ gs ++ rest) l kids stk sp) never.
  Proof.
    intros H Fh G F B L M. unfold ffits in Fh. inversion H as [|a Ha]; subst.
    - fitinv. cbn [app]. unfold module. ost. apply o_nth1; [reflexivity|unfold opens; tauto|]. kev. ost.
      unfold item_list. ost. eapply ow_mono; [eapply items_bad; eauto; lia|]. intros ? ? [].
    - assert (HA : s_address_name [TTok a]) by (destruct Ha as [-> | ->]; [left|right]; reflexivity).
      assert (X : forall g1 g2 tl, ffits [a] [g2] -> (fst (fst g2) = IDENT \/ fst (fst g2) = INTEGER_NUMBER) ->
        fst (fst g1) = MODULE_KW -> ffits [COLON_COLON; IDENT; L_BRACE] tl ->
        ow module (TS (g1 :: [g2] ++ tl ++ gs ++ rest) l kids stk sp) never).
      { intros [[k1 w1] c1] g2 tl F2 K2 K1 Ft. unfold ffits in Ft. cbn [fst] in K1. subst k1. fitinv. cbn [app]. unfold module. ost.
        unfold nth_at. ost1. apply ow_tw. apply r_nth1; [lia|exact K2|]. intros y Hy. ost.
        rewrite (Hy COLON_COLON ltac:(unfold opens; tauto)). kev. ost. unfold address_ident_r. ost.
        apply ow_tw. change (g2 :: ?r) with ([g2] ++ r). eapply r_address_name; [exact HA|exact F2|lia|].
        intros l' sp' B'. ost. unfold item_list. ost. eapply ow_mono; [eapply items_bad; eauto; lia|]. intros ? ? []. }
      inversion Fh as [|? g1 ? r1 K1 F1]; subst. inversion F1 as [|? g2 ? r2 K2 F2]; subst.
      change ((g1 :: g2 :: r2) ++ gs ++ rest) with (g1 :: [g2] ++ r2 ++ gs ++ rest).
      apply X; [constructor; [exact K2|constructor]| |exact K1|exact F2].
      destruct Ha as [-> | ->]; cbn in K2; tauto.
  Qed.

  Lemma modules_bad ms gs g rest l kids stk sp : gen Modules ms -> fits ms gs -> off [MODULE_KW; R_BRACE] (fst (fst g)) -> fst (fst g) <> EOF ->
    sp + 5 * size gs + 13 <= 10000 -> ow (call F_address_items) (TS (gs ++ g :: rest) l kids stk sp) never.
  Proof.
    intros G F B1 B2 L. eapply o_modules; [exact G|exact F|exact L|]. intros. apply modules_stuck; assumption.
  Qed.
  Lemma modules_module_bad ms gs rest l kids stk sp : gen Modules ms -> fits ms gs ->
    gcur rest = MODULE_KW -> (forall l kids stk sp', sp' <= sp + 5 * size gs + 5 -> ow module (TS rest l kids stk sp') never) ->
    sp + 5 * size gs + 13 <= 10000 -> ow (call F_address_items) (TS (gs ++ rest) l kids stk sp) never.
  Proof.
    intros G F K H L. eapply o_modules; [exact G|exact F|exact L|]. intros l' kids' sp' B'.
    apply (ow_call t F_address_items). cbn [body]. unfold address_items_body. ost.
    eapply ow_mono; [apply H; lia|]. intros ? ? [].
  Qed.

  Lemma address_bad a g0 gs rest l kids stk sp : address_leaf a -> ffits [ADDRESS_KW; a; L_BRACE] g0 ->
    (forall l kids stk sp', sp' <= sp + 12 -> ow (call F_address_items) (TS (gs ++ rest) l kids stk sp') never) ->
    sp + 35 <= 10000 -> ow (call F_root) (TS (g0 ++ gs ++ rest) l kids stk sp) never.
  Proof.
    intros Ha F0 H L. assert (HA : s_address_name [TTok a]) by (destruct Ha as [-> | ->]; [left|right]; reflexivity).
    inversion F0 as [|? g1 ? r1 K1 F1]; subst. inversion F1 as [|? g2 ? r2 K2 F2]; subst. unfold ffits in *.
    change ((g1 :: g2 :: r2) ++ gs ++ rest) with (g1 :: [g2] ++ r2 ++ gs ++ rest).
    destruct g1 as [[k1 w1] c1]. cbn [fst stands_for] in K1. subst k1. clear F0 F1.
    fitinv. cbn [app].
    apply (ow_call t F_root). cbn [body]. unfold root_body. ost. unfold address. ost. unfold address_ident_r. ost.
    apply ow_tw. match goal with |- ParserTotal.tw _ _ (TS (?g :: ?r) _ _ _ _) _ => change (g :: r) with ([g] ++ r) end.
    eapply r_address_name; [exact HA|constructor; [eassumption|constructor]|lia|].
    intros l' sp' B. cbn [app]. ost. unfold address_item_list. ost. eapply ow_mono; [apply H; lia|]. intros ? ? [].
  Qed.

  Lemma module_at_root rest l kids stk sp : gcur rest = MODULE_KW ->
    (forall l kids stk sp', sp' <= sp + 2 -> ow module (TS rest l kids stk sp') never) -> sp + 5 <= 10000 ->
    ow (call F_root) (TS rest l kids stk sp) never.
  Proof.
    intros K H L. apply (ow_call t F_root). cbn [body]. unfold root_body. ost. eapply ow_mono; [apply H; lia|]. intros ? ? [].
  Qed.
  Lemma script_bad is g0 gs rest l kids stk sp sp0 : ffits [SCRIPT_KW; L_BRACE] g0 -> gen Items is -> fits is gs -> dead_items rest sp0 ->
    sp + 5 * size gs + 35 <= 10000 -> sp + 5 * size gs + 20 <= sp0 -> ow (call F_root) (TS (g0 ++ gs ++ rest) l kids stk sp) never.
  Proof.
    intros F0 G F B L M. unfold ffits in F0. fitinv. cbn [app]. apply (ow_call t F_root). cbn [body]. unfold root_body. ost.
    unfold script. ost. unfold item_list. ost. eapply ow_mono; [eapply items_bad; eauto; lia|]. intros ? ? [].
  Qed.

  (** ** A good beginning and a token that does not fit *)
  Lemma off_of ks k : ~ In k ks -> off ks k.
  Proof.
    intros H. unfold off. destruct (existsb (kind_eqb k) ks) eqn:E; [|reflexivity]. apply existsb_exists in E as (x & Hx & E).
    apply kind_eqb_eq in E. subst x. contradiction.
  Qed.
  Lemma head_cur h hs rest : module_head h -> ffits h hs -> gcur (hs ++ rest) = MODULE_KW.
  Proof. intros H F. inversion H; subst; inversion F; subst; cbn in *; congruence. Qed.

  Lemma in_items_bad pre allowed gs rest l kids stk sp sp0 : beginning pre allowed -> In FUN_KW allowed -> ffits pre gs ->
    dead_items rest sp0 -> sp + 5 * size gs + 80 <= 10000 -> sp + 5 * size gs + 50 <= sp0 ->
    ow (call F_root) (TS (gs ++ rest) l kids stk sp) never.
  Proof.
    intros B I F D L M. unfold ffits in F. inversion B as [f G|f a ms G A GM|b ks h is B' I' H G|f is G GI]; subst;
      try (cbn in I; intuition discriminate).
    - apply fits_app in F as (g1 & r & F1 & F2 & ->). apply fits_app in F2 as (g2 & g3 & F2 & F3 & ->). sizes.
      inversion B' as [f Gf|f a ms Gf A GM|b' ks' h' is' B'' I'' H' G'|f is' Gf GI]; subst;
        try (cbn in I'; intuition discriminate).
      + rewrite <- !app_assoc. eapply o_file; [exact Gf|exact F1|lia|]. intros l' kids' sp' X.
        apply module_at_root; [eapply head_cur; eassumption| |lia]. intros.
        eapply module_bad; [exact H|exact F2|exact G|exact F3|exact D|lia|lia].
      + apply fits_app in F1 as (g4 & r & F4 & F5 & ->). change (ADDRESS_KW :: a :: L_BRACE :: flat_map leaves ms) with ([ADDRESS_KW; a; L_BRACE] ++ flat_map leaves ms) in F5.
        apply fits_app in F5 as (g5 & g6 & F5 & F6 & ->). sizes. rewrite <- !app_assoc.
        eapply o_file; [exact Gf|exact F4|lia|]. intros l' kids' sp' X.
        eapply address_bad; [exact A|exact F5| |lia]. intros.
        eapply modules_module_bad; [exact GM|exact F6|eapply head_cur; eassumption| |lia]. intros.
        eapply module_bad; [exact H|exact F2|exact G|exact F3|exact D|lia|lia].
    - apply fits_app in F as (g1 & r & F1 & F2 & ->). change (SCRIPT_KW :: L_BRACE :: flat_map leaves is) with ([SCRIPT_KW; L_BRACE] ++ flat_map leaves is) in F2.
      apply fits_app in F2 as (g2 & g3 & F2 & F3 & ->). sizes. rewrite <- !app_assoc.
      eapply o_file; [exact G|exact F1|lia|]. intros l' kids' sp' X.
      eapply script_bad; [exact F2|exact GI|exact F3|exact D|lia|lia].
  Qed.

  Lemma beginning_bad pre allowed gs g rest l kids stk sp : beginning pre allowed -> ffits pre gs ->
    ~ In (fst (fst g)) allowed -> fst (fst g) <> EOF -> is_trivia (fst (fst g)) = false ->
    sp + 5 * size gs + 80 <= 10000 -> ow (call F_root) (TS (gs ++ g :: rest) l kids stk sp) never.
  Proof.
    intros B F N E T L. apply off_of in N. pose proof B as B0. inversion B as [f G|f a ms G A GM|b ks h is B' I H G|f is G GI]; subst.
    - eapply o_file; [exact G|exact F|lia|]. intros l' kids' sp' _. apply (root_stuck g rest N E T (N.to_nat 10001)). lia.
    - unfold ffits in F. apply fits_app in F as (g1 & r & F1 & F2 & ->). change (ADDRESS_KW :: a :: L_BRACE :: flat_map leaves ms) with ([ADDRESS_KW; a; L_BRACE] ++ flat_map leaves ms) in F2.
      apply fits_app in F2 as (g2 & g3 & F2 & F3 & ->). sizes. rewrite <- !app_assoc.
      eapply o_file; [exact G|exact F1|lia|]. intros l' kids' sp' B'.
      eapply address_bad; [exact A|exact F2| |lia]. intros. eapply modules_bad; [exact GM|exact F3|exact N|exact E|lia].
    - eapply (in_items_bad _ _ gs (g :: rest)); [exact B0|cbn; auto|exact F|apply bad_in_items; [exact N|exact E]|exact L|reflexivity].
    - eapply (in_items_bad _ _ gs (g :: rest)); [exact B0|cbn; auto|exact F|apply bad_in_items; [exact N|exact E]|exact L|reflexivity].
  Qed.

  (** ** Inside a function *)
  Ltac useexpr H := eapply r_expr; [exact H|eassumption|endk|lia|intros ? ? ?; cbv beta].
  Ltac call_ := match goal with H : forall _ _ _, _ -> _ |- _ => apply H end; lia.

  Lemma o_stmts ss : finished ss -> forall gs rest l kids stk sp (Q : unit -> tst -> Prop),
    fits ss gs -> sp + 5 * size gs + 14 <= 10000 ->
    (forall l kids sp', sp' <= sp + 5 * size gs -> ow (call F_block_contents) (TS rest l kids stk sp') Q) ->
    ow (call F_block_contents) (TS (gs ++ rest) l kids stk sp) Q.
  Proof.
    induction 1 as [|e ss GE _ IH|lt ss GL _ IH]; intros gs rest l kids stk sp Q.
    - init. call_.
    - init. pose proof (gen_head _ _ GE ltac:(discriminate) ltac:(discriminate)) as S1. cbn [heads] in S1.
      pose proof (gen_stm t _ _ GE) as HE. cbn [stm] in HE. first_off [R_BRACE; EOF; LET_KW].
      apply (ow_call t F_block_contents). cbn [body]. unfold block_contents_body. ost. unfold stmt. ost.
      apply ow_tw. useexpr HE. ost. unfold stmt_semi. ost. eapply IH; [eassumption|lia|]. intros. call_.
    - pose proof (gen_stm t _ _ GL) as HL. cbn [stm] in HL. destruct HL as (p & a & i & -> & HP & HA & HI).
      destruct HA as [-> | (ty & -> & HT)]; destruct HI as [-> | (e & -> & HE)]; cbn [app]; init;
        apply (ow_call t F_block_contents); cbn [body]; unfold block_contents_body; ost; unfold stmt; ost; unfold let_stmt; ost; unfold pattern; ouse HP; ost;
        try (unfold ascription; ost; unfold type_; ouse HT; ost); try (apply ow_tw; useexpr HE; ost); unfold stmt_semi; ost;
        (eapply IH; [eassumption|lia|]; intros; call_).
  Qed.

  (** what is skipped *)
  Definition junk_ok (js : list group) : Prop := Forall (fun g => off [SEMICOLON; R_PAREN; EOF] (fst (fst g))) js.
  Lemma ts_off ts k : off ts k -> ts_has ts k = false.
  Proof.
    intros H. rewrite ts_has_spec. unfold off, kind_in in *. exact H.
  Qed.
  Lemma o_skip js gp gs l kids stk sp (Q : unit -> tst -> Prop) : junk_ok js -> fst (fst gp) = R_PAREN ->
    (forall l kids, Q tt (TS (gp :: gs) l kids stk sp)) ->
    ow (call (F_skip_until ([SEMICOLON; R_PAREN] ++ [EOF]))) (TS (js ++ gp :: gs) l kids stk sp) Q.
  Proof.
    intros J K HQ. revert l kids. induction J as [|g js Hg _ IH]; intros l kids; apply (ow_call t (F_skip_until _)); cbn [body]; unfold skip_until_body.
    - cbn [app]. ost1. ost1. rewrite K. kev. ost. apply HQ.
    - cbn [app]. ost1. ost1. rewrite (ts_off _ _ Hg). cbv iota. apply ow_bind. apply ow_tw.
      apply r_bump_any; [|apply IH]. intros E. rewrite E in Hg. discriminate.
  Qed.

  (** one statement that is none *)
  Lemma bad_stmt js gp gs l kids stk sp (Q : unit -> tst -> Prop) : junk_ok js -> fst (fst gp) = R_PAREN ->
    off statement_first (gcur (js ++ gp :: gs)) ->
    (forall l kids sp', sp' = sp + 2 -> Q tt (TS (gp :: gs) l kids stk sp')) ->
    ow (stmt SemiOptional) (TS (js ++ gp :: gs) l kids stk sp) Q.
  Proof.
    intros J K O HQ. pose proof (ts_off LITERAL_FIRST (gcur (js ++ gp :: gs))) as TL.
    unfold statement_first in O. offs. unfold stmt. ost. unfold expr. apply (ow_call t (F_expr_bp 1)). cbn [body]. unfold expr_bp_body.
    ost1. unfold lhs_. ost1. ost1. ost1. unfold atom_expr. apply ow_bind. unfold literal. apply ow_bind.
    apply ow_tw. apply r_at_ts. rewrite TL by (unfold off; cbn [existsb LITERAL_FIRST]; kev; reflexivity). cbn [negb].
    ost. unfold error_and_skip_until. apply ow_bind. ost. apply o_skip; [exact J|exact K|]. intros l1 k1.
    destruct gp as [[kp wp] cp]. cbn [fst] in K. subst kp.
    ost. apply (ow_call t (F_postfix _)). cbn [body]. unfold postfix_body. ost.
    apply (ow_call t (F_expr_bp_loop _ _)). cbn [body]. unfold expr_bp_loop_body, current_op. ost.
    change (alookup kind_eqb R_PAREN op_table) with (@None N). cbn [fst]. change (0 <? 1) with true. ost. unfold stmt_semi. ost.
    apply HQ. clear. lia.
  Qed.

  Lemma paren_stuck gp gs : fst (fst gp) = R_PAREN ->
    forall n l ks stk sp, 10000 < sp + N.of_nat n -> ow (call F_block_contents) (TS (gp :: gs) l ks stk sp) never.
  Proof.
    intros K. induction n as [|n IH]; intros l ks stk sp L; apply (ow_call t F_block_contents); cbn [body]; unfold block_contents_body.
    - apply ow_bind, ow_bind. apply limit_at. lia.
    - assert (E : forall k, kind_eqb (fst (fst gp)) k = kind_eqb R_PAREN k) by (intros; rewrite K; reflexivity).
      ost. rewrite !E. kev. ost. rewrite !E. kev. ost. apply (bad_stmt [] gp gs); [constructor|exact K|cbn [app gcur]; rewrite K; reflexivity|].
      intros l' ks' sp' ->. apply IH. lia.
  Qed.

  Definition dead_block (rest : list group) (sp0 : N) : Prop :=
    forall l kids stk sp', sp' <= sp0 -> ow (call F_block_contents) (TS rest l kids stk sp') never.

  Lemma junk_dead js gp gs sp0 : junk_ok js -> fst (fst gp) = R_PAREN -> off statement_first (gcur (js ++ gp :: gs)) ->
    gcur (js ++ gp :: gs) <> EOF -> dead_block (js ++ gp :: gs) sp0.
  Proof.
    intros J K O E l kids stk sp' _. apply (ow_call t F_block_contents). cbn [body]. unfold block_contents_body.
    assert (E2 : kind_eqb (gcur (js ++ gp :: gs)) EOF = false).
    { destruct (kind_eqb (gcur (js ++ gp :: gs)) EOF) eqn:X; [|reflexivity]. apply kind_eqb_eq in X. contradiction. }
    pose proof O as O'. unfold statement_first in O'. offs. ost. apply bad_stmt; [exact J|exact K|exact O|].
    intros l' ks' sp'' _. apply (paren_stuck gp gs K (N.to_nat 10001)). clear. lia.
  Qed.

  Lemma stmts_dead ss gs rest sp0 sp1 : finished ss -> fits ss gs -> dead_block rest sp0 ->
    sp1 + 5 * size gs <= sp0 -> sp1 + 5 * size gs + 14 <= 10000 -> dead_block (gs ++ rest) sp1.
  Proof.
    intros G F D L M l kids stk sp' B. eapply o_stmts; [exact G|exact F|lia|]. intros. apply D. lia.
  Qed.
  Lemma block_dead g rest sp0 sp1 : fst (fst g) = L_BRACE -> dead_block rest sp0 -> sp1 + 5 <= sp0 -> sp1 + 5 <= 10000 -> dead_block (g :: rest) sp1.
  Proof.
    intros K D L M l kids stk sp' B. destruct g as [[k w] c]. cbn [fst] in K. subst k.
    apply (ow_call t F_block_contents). cbn [body]. unfold block_contents_body. ost. unfold stmt. ost.
    unfold expr. apply (ow_call t (F_expr_bp 1)). cbn [body]. unfold expr_bp_body. ost. unfold lhs_. ost. unfold atom_expr. ost.
    unfold literal. ost. unfold block_expr_unchecked. ost. unfold block_contents.
    eapply ow_mono; [apply D; lia|]. intros ? ? [].
  Qed.
  Lemma fun_dead ps r ss g1 g2 g3 g4 g5 g6 rest sp0 sp1 : gen (Commas Param) ps -> gen RetType r -> finished ss ->
    ffits [FUN_KW; IDENT; L_PAREN] g1 -> fits ps g2 -> ffits [R_PAREN] g3 -> fits r g4 -> ffits [L_BRACE] g5 -> fits ss g6 ->
    dead_block rest sp0 -> sp1 + 5 * (size g2 + size g4 + size g6) + 40 <= sp0 -> sp1 + 5 * (size g2 + size g4 + size g6) + 60 <= 10000 ->
    dead_items (g1 ++ g2 ++ g3 ++ g4 ++ g5 ++ g6 ++ rest) sp1.
  Proof.
    intros GP GR GS F1 F2 F3 F4 F5 F6 D L M. unfold ffits in *.
    pose proof (gen_stm t _ _ GP) as HP. cbn [stm s_commas] in HP. pose proof (gen_stm t _ _ GR) as HR. cbn [stm] in HR.
    split; [fitinv; reflexivity|]. intros l kids stk sp' B.
    destruct HR as [-> | (ty & -> & HT)]; fitinv; sizes; cbn [app]; apply (ow_call t F_items); cbn [body]; unfold items_body; ost;
      unfold Grammar.item; ost; unfold opt_item; ost; unfold function_def; ost; unfold param_list; ost; ouse HP; ost; unfold opt_ret_type; ost.
    - unfold block_expr. ost. unfold block_expr_unchecked. ost. unfold block_contents.
      eapply ow_mono; [eapply (stmts_dead ss _ _ sp0 _ GS F6 D); [| |apply N.le_refl]; lia|]. intros ? ? [].
    - unfold type_. ouse HT. ost. unfold block_expr. ost. unfold block_expr_unchecked. ost. unfold block_contents.
      eapply ow_mono; [eapply (stmts_dead ss _ _ sp0 _ GS F6 D); [| |apply N.le_refl]; lia|]. intros ? ? [].
  Qed.

  Lemma inside_bad pre : inside pre -> forall gs rest l kids stk sp, ffits pre gs ->
    dead_block rest (sp + 5 * size gs + 90) -> sp + 5 * size gs + 110 <= 10000 ->
    ow (call F_root) (TS (gs ++ rest) l kids stk sp) never.
  Proof.
    induction 1 as [b ks ps r ss B I GP GR GS|b ss _ IH GS]; intros gs rest l kids stk sp F D L; unfold ffits in F.
    - apply fits_app in F as (g0 & x & F0 & F & ->). apply fits_app in F as (g1 & x1 & F1 & F & ->).
      apply fits_app in F as (g2 & x2 & F2 & F & ->). apply fits_app in F as (g3 & x3 & F3 & F & ->).
      apply fits_app in F as (g4 & x4 & F4 & F & ->). apply fits_app in F as (g5 & g6 & F5 & F6 & ->).
      sizes. rewrite <- !app_assoc.
      eapply (in_items_bad b ks g0); [exact B|exact I|exact F0| | |apply N.le_refl].
      + eapply (fun_dead ps r ss); try eassumption; lia.
      + lia.
    - apply fits_app in F as (g0 & x & F0 & F & ->). inversion F as [|? g1 ? g2 K1 F2]; subst. sizes. rewrite <- app_assoc. cbn [app].
      apply IH; [exact F0| |lia]. eapply block_dead; [exact K1| |apply N.le_refl|lia].
      eapply stmts_dead; [exact GS|exact F2|exact D|lia|lia].
  Qed.
End Text.

(** ** The whole text *)
Lemma root_lead t g gs l kids stk sp : is_trivia (fst (fst g)) = true ->
  (forall kids sp', sp' <= sp + 4 -> ow t (call F_root) (TS gs None kids stk sp') never) ->
  ow t (call F_root) (TS (g :: gs) l kids stk sp) never.
Proof.
  intros K H. apply (ow_call t F_root). cbn [body]. unfold root_body.
  assert (N : forall k, is_trivia k = false -> kind_eqb (fst (fst g)) k = false).
  { intros k Hk. destruct (kind_eqb (fst (fst g)) k) eqn:E; [|reflexivity]. apply kind_eqb_eq in E. subst k. congruence. }
  apply ow_bind. apply o_at. cbn [gcur]. rewrite N by reflexivity. cbv iota.
  apply ow_bind. apply o_at. cbn [gcur]. rewrite N by reflexivity. cbv iota.
  apply ow_bind. apply o_at. cbn [gcur]. rewrite N by reflexivity. cbv iota.
  apply ow_bind. apply o_at. cbn [gcur]. rewrite N by reflexivity. cbv iota.
  apply ow_bind. apply ow_tw. apply r_current. cbn [gcur]. rewrite K. apply ow_bind. apply ow_tw.
  apply r_bump_any; [intros E; rewrite E in K; discriminate|]. apply H. lia.
Qed.

Lemma run_panics t gs lx : lexer_new t = Ok lx -> steps t (ungroup gs) [] ->
  Forall group_ok gs -> Forall solid (tl gs) -> layout gs ->
  (forall m, ow t (call F_root) (TS gs None [] [Open m None []] 0) never) ->
  parse_text t = Panic PAssert.
Proof.
  intros HL S G1 G2 Lay H. unfold parse_text. rewrite HL. cbn [bind]. unfold parse_with_lexer.
  pose proof (parse_ends _ lx HL) as NF. unfold parse_with_lexer in NF.
  assert (R : trel t (parser_new lx) (TS gs None [] [] 0)).
  { destruct (lexer_new_inv _ _ HL) as (k & len & I).
    constructor; cbn [parser_new ps_lexer ps_events ps_steps s_toks s_last s_kids s_stack s_spent]; auto.
    - apply lay_base. constructor.
    - exact Logic.I.
    - exists [], t, len. split; [|exact S]. destruct (steps_head _ _ S) as [m Fn]. rewrite (li_cur _ _ _ _ _ _ I) in Fn.
      injection Fn as -> _. exact I. }
  assert (W : ow t root (TS gs None [] [] 0) never).
  { unfold root. apply ow_bind. apply ow_tw. apply r_start. intros m. apply ow_bind.
    intros s Rs. destruct (H m s Rs) as [k [P|(? & ? & ? & _ & _ & [])]]. exists k. left. exact P. }
  destruct (W _ R) as [k [P|(? & ? & ? & _ & _ & [])]].
  set (d := parse_fuel (lx_text lx)) in *.
  assert (E : interp (run d) root (parser_new lx) = Panic PAssert).
  { destruct (Nat.le_ge_cases k d) as [Le|Le].
    - exact (interp_le_panic k d root _ _ Le P).
    - rewrite <- P. symmetry. apply interp_more; [intros f' s' X; apply run_more; auto|].
      intros X. rewrite X in NF. apply NF. reflexivity. }
  rewrite E. reflexivity.
Qed.

Lemma parse_dead t ws : token_stream t ws -> ~ comment_in_the_way ws -> ~ glued ws -> ascii_strings t ->
  (forall gs, map fst gs = proper ws -> Forall (fun g : group => is_trivia (fst (fst g)) = false /\ fst (fst g) <> EOF) gs ->
     forall kids stk sp, sp <= 4 -> ow t (call F_root) (TS gs None kids stk sp) never) ->
  parse_text t = Panic PAssert.
Proof.
  intros St NC NG A H.
  pose proof (stream_steps _ _ St A) as S.
  assert (HL : exists lx, lexer_new t = Ok lx).
  { unfold lexer_new. destruct ws as [|[k' w'] ws'].
    - inversion S; subst. eexists. reflexivity.
    - apply steps_cons_inv in S as (b' & -> & F' & _). rewrite F'. eexists. reflexivity. }
  destruct HL as [lx HL]. pose proof (stream_no_eof _ _ St) as NE.
  destruct (grouping _ NE) as (lead & gs & Ew & T & Gk & Sol & M).
  assert (Pr : Forall (fun g : group => is_trivia (fst (fst g)) = false /\ fst (fst g) <> EOF) gs).
  { apply Forall_forall. intros g Hg. split.
    - rewrite Forall_forall in Sol. exact (Sol _ Hg).
    - rewrite Forall_forall in Gk. destruct (Gk _ Hg) as [_ X]. exact X. }
  specialize (H gs M Pr).
  destruct lead as [|p lead].
  - cbn [app] in Ew. subst ws. apply (run_panics t gs lx HL S Gk).
    + destruct Sol; [constructor|assumption].
    + apply (group_layout _ []); assumption.
    + intros m. apply H. lia.
  - inversion T as [|? ? T1 T2]; subst.
    assert (Ne : fst p <> EOF). { intros X. unfold trivia_piece in T1. rewrite X in T1. discriminate. }
    apply (run_panics t ((p, lead) :: gs) lx HL).
    + rewrite ungroup_cons. cbn [fst snd app]. exact S.
    + constructor; [split; assumption|exact Gk].
    + exact Sol.
    + apply (group_layout _ []); [constructor; [split; assumption|exact Gk]| |]; rewrite ungroup_cons; assumption.
    + intros m. apply root_lead; [exact T1|]. intros kids sp' Hs. apply H. lia.
Qed.

Lemma fits_map pre a (ga : list group) : Forall2 stands_for pre a -> map fst ga = a -> ffits pre ga.
Proof.
  intros F <-. unfold ffits. revert ga F. induction pre as [|x pre IH]; intros [|y ga] F; inversion F; subst; constructor; auto.
Qed.
Lemma size_map {A} (f : group -> A) ga a : map f ga = a -> size ga = N.of_nat (length a).
Proof. intros <-. unfold size. rewrite map_length. reflexivity. Qed.

Lemma parse_unknown t ws n k : token_stream t ws -> unknown_item ws n k -> ~ comment_in_the_way ws -> ~ glued ws ->
  ascii_strings t -> N.of_nat n <= 1980 -> parse_text t = Panic PAssert.
Proof.
  intros St (pre & allowed & a & w & b & E & <- & F & B & NA) NC NG A L.
  apply (parse_dead t ws St NC NG A). intros gs M Pr kids stk sp Hs.
  rewrite E in M. apply map_eq_app in M. destruct M as (ga & gr & -> & Ma & Mr).
  apply map_eq_cons in Mr. destruct Mr as (g & gb & -> & Mg & Mb).
  apply Forall_app in Pr as [_ Pr]. inversion Pr as [|? ? [P1 P2] _]; subst.
  pose proof (size_map _ _ _ (eq_refl (map fst ga))) as Sz.
  eapply beginning_bad; [exact B|eapply fits_map; [exact F|reflexivity]|rewrite Mg; exact NA|exact P2|exact P1|].
  rewrite Sz. lia.
Qed.

Lemma parse_stray t ws n : token_stream t ws -> stray_parenthesis ws n -> ~ comment_in_the_way ws -> ~ glued ws ->
  ascii_strings t -> N.of_nat n <= 1975 -> parse_text t = Panic PAssert.
Proof.
  intros St (pre & a & junk & w & b & E & <- & F & B & H1 & H2) NC NG A L.
  apply (parse_dead t ws St NC NG A). intros gs M Pr kids stk sp Hs.
  rewrite E in M. apply map_eq_app in M. destruct M as (ga & gr & -> & Ma & Mr).
  apply map_eq_app in Mr. destruct Mr as (gj & gr' & -> & Mj & Mr).
  apply map_eq_cons in Mr. destruct Mr as (g & gb & -> & Mg & Mb).
  apply Forall_app in Pr as [_ Pr]. apply Forall_app in Pr as [Pj _].
  pose proof (size_map _ _ _ (eq_refl (map fst ga))) as Sz. subst a.
  eapply inside_bad; [exact B|eapply fits_map; [exact F|reflexivity]| |rewrite Sz; lia].
  assert (K : fst (fst g) = R_PAREN) by (rewrite Mg; reflexivity).
  apply junk_dead; [|exact K| |].
  - subst junk. clear -H2 Pj. induction Pj as [|x gj [_ P] _ IH]; [constructor|]. cbn [map] in H2. inversion H2 as [|? ? [X1 X2] X3]; subst.
    constructor; [|apply IH; assumption]. apply off_of. cbn. intuition congruence.
  - apply off_of. destruct gj as [|x gj]; cbn [app gcur].
    + rewrite K. cbn. intuition discriminate.
    + subst junk. apply (H1 (fst x)). reflexivity.
  - destruct gj as [|x gj]; cbn [app gcur]; [rewrite K; discriminate|]. inversion Pj as [|? ? [_ X] _]; subst. exact X.
Qed.
