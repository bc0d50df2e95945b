(** What stands in front of a mistake is parsed as if the mistake was not there. *)
From Coq Require Import String.
From Verif Require Import Base BaseProofs Kinds KindsProofs LexSpec TokenSet Lexer LexerRuns LexerProofs LexerStateProofs
  Parser Grammar Sink TreeSpec GreenSpec ParserLogic GrammarProofs SinkProofs ParseProofs TermProofs ParserTotal SyntaxSpec AcceptRules AcceptProofs AcceptTop
  LimitProofs UnknownSpec UnknownProofs GapTop BeforeSpec.
Local Open Scope N_scope.

Definition ast_of (st : tst) : ast := Ast (gcur (s_toks st)) (s_last st) (s_kids st) (s_stack st).

Lemma same_split {A} (a a' b b' : list A) : a ++ b = a' ++ b' -> length a = length a' -> b = b'.
Proof.
  revert a'. induction a as [|x a IH]; intros [|y a'] E L; cbn in *; try discriminate L; [exact E|].
  injection E as _ E. injection L as L. eauto.
Qed.
(** the same events and the same open markers: the same trees *)
Lemma lay_inj evs stk f g : lay evs stk f -> lay evs stk g -> f = g.
Proof.
  intros H H'. remember evs as evs' eqn:Ee in H'. remember stk as stk' eqn:Es in H'.
  destruct H as [seg f D|evs0 stk0 f0 seg f L D|evs0 stk0 f0 n off k x seg f L C E D];
    destruct H' as [seg' f' D'|evs0' stk0' f0' seg' f' L' D'|evs0' stk0' f0' n' off' k' x' seg' f' L' C' E' D']; try discriminate Es.
  - subst seg'. eapply den_inj; eassumption.
  - injection Es as P _ _. pose proof (same_split _ _ _ _ Ee P) as X. injection X as ->. eapply den_inj; eassumption.
  - injection Es as P _ _ _. rewrite !app_assoc in Ee. pose proof (same_split _ _ _ _ Ee) as X.
    rewrite !app_length, !set_nth_length in X. injection (X P) as ->. eapply den_inj; eassumption.
Qed.

Lemma interp_det n m {A} (p : prog A) s r x : interp (run n) p s = Ok r -> interp (run m) p s = x -> x <> Fuel -> x = Ok r.
Proof.
  intros E X F. destruct (Nat.le_ge_cases n m) as [L|L].
  - rewrite (interp_le n m p s r L E) in X. congruence.
  - rewrite <- E, <- X. symmetry. apply interp_more; [intros f s' Y; apply run_more; auto|congruence].
Qed.

Section Text.
  Variable t : text.
  Notation ow := (ow t).

  Definition both (s : pstate) (st : tst) : Prop := trel t s st /\ rel t s (ast_of st).
  (** if the program returns, it does so in a state with [G] *)
  Definition upto {A} (p : prog A) (st : tst) (G : A -> ast -> Prop) : Prop :=
    forall n s a s', both s st -> interp (run n) p s = Ok (a, s') -> exists st', rel t s' st' /\ G a st'.

  Lemma sound {A} (p : prog A) (G : A -> ast -> Prop) st n s a s' : rel t s st -> wp p G st -> interp (run n) p s = Ok (a, s') ->
    exists st', rel t s' st' /\ G a st'.
  Proof.
    intros R W E. pose proof (interp_sound t (run n) (run_sound t body_sound n) _ p s st G R W) as O. rewrite E in O. exact O.
  Qed.

  Lemma pw_mono {A} (p : prog A) st (G G' : A -> ast -> Prop) : upto p st G -> (forall a x, G a x -> G' a x) -> upto p st G'.
  Proof. intros H I n s a s' B E. destruct (H n s a s' B E) as (x & R & X). eauto. Qed.
  Lemma pw_any {A} (p : prog A) st (G : A -> ast -> Prop) : wp p G (ast_of st) -> upto p st G.
  Proof. intros W n s a s' [_ R] E. exact (sound p G _ n s a s' R W E). Qed.
  Lemma pw_then {A B} (p : prog A) (q : A -> prog B) st (G : B -> ast -> Prop) :
    upto p st (fun a x => wp (q a) G x) -> upto (pbind p q) st G.
  Proof.
    intros H n s b s' B0 E. rewrite interp_bind in E. apply bind_ok in E as ([a s1] & E1 & E2).
    destruct (H n s a s1 B0 E1) as (x & R & W). exact (sound _ _ _ n _ _ _ R W E2).
  Qed.
  Lemma pw_call f st (G : fn_ret f -> ast -> Prop) : upto (body f) st G -> upto (call f) st G.
  Proof.
    intros H n s a s' B E. unfold call in E. cbn [interp] in E. apply bind_ok in E as ([b s1] & E1 & E). injection E as <- <-.
    destruct n as [|n]; [discriminate E1|]. exact (H n s b s1 B E1).
  Qed.
  (** a part that is known to go well *)
  Lemma pw_step {A B} (p : prog A) (q : A -> prog B) st (G : B -> ast -> Prop) :
    adds p -> ow p st (fun a st' => s_stack st' = s_stack st /\ upto (q a) st' G) -> upto (pbind p q) st G.
  Proof.
    intros Ad H n s b s' [R1 R2] E. rewrite interp_bind in E. apply bind_ok in E as ([a s1] & E1 & E2).
    destruct (H s R1) as [m [P|(a' & s1' & st1 & E1' & R1' & St & W)]].
    - pose proof (interp_det _ _ _ _ _ _ E1 P ltac:(discriminate)) as X. discriminate X.
    - pose proof (interp_det _ _ _ _ _ _ E1 E1' ltac:(discriminate)) as X. injection X as -> ->.
      assert (R : exists x, rel t s1 x /\ a_stack x = s_stack st).
      { eapply (sound p (fun _ x => a_stack x = s_stack st)); [exact R2| |exact E1]. apply Ad. reflexivity. }
      destruct R as ([c l ks stk] & R & Es). cbn [a_stack] in Es. subst stk.
      refine (W n s1 b s' _ E2). split; [exact R1'|].
      pose proof (lay_inj _ _ _ _ (r_lay _ _ _ R) ltac:(cbn [a_stack]; rewrite <- St; exact (q_lay _ _ _ R1'))) as K. cbn [a_kids] in K.
      assert (C : c = gcur (s_toks st1)).
      { destruct (q_lex _ _ _ R1') as (ws & rest & len & Lx & _). pose proof (cur_kind _ _ _ _ (r_lex _ _ _ R)) as X2. cbn [a_cur] in X2.
        unfold lx_current in X2. rewrite (li_tok _ _ _ _ _ _ Lx) in X2. cbn [token_new t_kind] in X2. congruence. }
      subst c ks. constructor; cbn [ast_of a_cur a_last a_kids a_stack].
      + exact (q_lay _ _ _ R1').
      + exact (q_last _ _ _ R1').
      + rewrite St. exact (r_lex _ _ _ R).
      + rewrite St. exact (r_ok _ _ _ R).
  Qed.
  Lemma pw_start {B} (q : nat -> prog B) gs l ks stk sp (G : B -> ast -> Prop) :
    (forall m, upto (q m) (TS gs None [] (Open m None ks :: stk) sp) G) -> upto (pbind start q) (TS gs l ks stk sp) G.
  Proof.
    intros H n s b s' [R1 R2] E. rewrite interp_bind in E. apply bind_ok in E as ([m s1] & E1 & E2).
    assert (W : tw t start (TS gs l ks stk sp) (fun m x => x = TS gs None [] (Open m None ks :: stk) sp)) by (apply r_start; reflexivity).
    destruct (W s R1) as (n' & m' & s1' & st1 & E1' & R1' & ->).
    pose proof (interp_det _ _ _ _ _ _ E1 E1' ltac:(discriminate)) as X. injection X as -> ->.
    refine (H m n s1 b s' _ E2). split; [exact R1'|].
    assert (R : exists x, rel t s1 x /\ x = Ast (gcur gs) None [] (Open m None ks :: stk)).
    { eapply (sound start (fun m' x => x = Ast (gcur gs) None [] (Open m' None ks :: stk))); [exact R2| |exact E1].
      apply wp_start. reflexivity. }
    destruct R as (x & R & ->). exact R.
  Qed.
End Text.

(** ** What is open stays as it is *)
Definition holds (stk : list open_) (kids : forest) (o : opened) (x : ast) : Prop :=
  a_stack x = stk /\ exists f, a_kids x = kids ++ f /\ begins o f.

Lemma begins_more o f new : begins o f -> begins o (f ++ new).
Proof. intros B. destruct B; [constructor|]. cbn [app]. rewrite <- ?app_comm_cons. constructor. assumption. Qed.
Lemma holds_more {A} (p : prog A) stk kids o x : adds p -> holds stk kids o x -> wp p (fun _ => holds stk kids o) x.
Proof.
  intros Ad (E & f & K & B). destruct x as [c l ks s]. cbn [a_stack a_kids] in *. subst s ks. apply Ad. intros a c' l' new.
  split; [reflexivity|]. exists (f ++ new). cbn [a_kids]. rewrite app_assoc. split; [reflexivity|]. apply begins_more, B.
Qed.
Lemma holds_close k m stk kids c o x : k <> TOMBSTONE -> k <> BIN_EXPR -> holds (Open m None kids :: stk) c o x ->
  wp (complete m k) (fun _ => holds stk kids ((k, c) :: o)) x.
Proof.
  intros T T2 (E & f & K & B). destruct x as [c' l ks s]. cbn [a_stack a_kids] in *. subst s ks.
  apply wp_complete; [exact T|intros X; contradiction|]. intros r. split; [reflexivity|]. cbn [opt_tree app a_kids].
  eexists. split; [reflexivity|]. constructor. exact B.
Qed.
Lemma holds_last m stk kids k c o x : k <> TOMBSTONE -> k <> BIN_EXPR -> holds (Open m None kids :: stk) c o x ->
  wp (complete m k ;; Ret tt) (fun _ => holds stk kids ((k, c) :: o)) x.
Proof. intros T T2 H. apply wp_bind. eapply wp_mono; [|apply holds_close; eassumption]. intros ? ? X. exact X. Qed.
Lemma holds_brace m stk kids k c o x : k <> TOMBSTONE -> k <> BIN_EXPR -> holds (Open m None kids :: stk) c o x ->
  wp (expect R_BRACE ;; complete m k ;; Ret tt) (fun _ => holds stk kids ((k, c) :: o)) x.
Proof.
  intros T T2 H. apply wp_bind. eapply wp_mono; [|apply holds_more; [|exact H]; solve_adds]. cbv beta. intros ? ? X. apply holds_last; assumption.
Qed.

Section Places.
  Variable t : text.
  Notation ow := (ow t).
  Notation pw := (upto t).

  Lemma adds_at k : adds (at_ k). Proof. solve_adds. Qed.
  Lemma adds_or k k' : adds (orp (at_ k) (at_ k')). Proof. solve_adds. Qed.
  Lemma adds_assert k : adds (assert_p (at_ k)). Proof. solve_adds. Qed.
  Lemma adds_bump k : k <> EOF -> adds (bump k).
  Proof. intros E c l K s Q H. apply wp_bump; [exact E|]. intros; apply H. Qed.

  (** one step of a run that may fail an assertion *)
  Ltac ost1 := match goal with
    | |- LimitProofs.ow _ (pbind _ _) _ _ => apply ow_bind
    | |- LimitProofs.ow _ (if true then _ else _) _ _ => cbv iota
    | |- LimitProofs.ow _ (if false then _ else _) _ _ => cbv iota
    | |- LimitProofs.ow _ (if _ then _ else _) _ _ => progress cbn [negb andb orb]
    | |- LimitProofs.ow _ (error _) _ _ => apply ow_tw; apply tw_err
    | |- LimitProofs.ow _ (orp _ _) _ _ => unfold orp
    | |- LimitProofs.ow _ (at_ _) _ _ => apply o_at; kev
    | |- LimitProofs.ow _ ?p _ _ => apply ow_tw; st1; st
    end.
  Ltac ost := repeat ost1.
  (** a whole phrase *)
  Ltac ouse H := apply ow_tw; use H.
  Ltac pst := match goal with
    | |- upto _ (pbind start _) _ _ => apply pw_start; intros ?
    | |- upto _ (pbind _ _) _ _ => apply pw_step; [solve [solve_adds]|ost; split; [reflexivity|]; cbn [negb]; cbv iota]
    end.
  Ltac puse H := apply pw_step; [solve [solve_adds]|ouse H].

  Lemma p_items is : gen Items is -> forall gs rest l kids stk sp (G : unit -> ast -> Prop),
    fits is gs -> off [SEMICOLON] (gcur rest) -> sp + 5 * size gs + 13 <= 10000 ->
    (forall l sp', sp' <= sp + 5 * size gs -> pw (call F_items) (TS rest l (kids ++ is) stk sp') G) ->
    pw (call F_items) (TS (gs ++ rest) l kids stk sp) G.
  Proof.
    intros G0. remember Items as x eqn:X. induction G0; try discriminate X.
    - intros gs rest l kids stk sp G. init. match goal with H : forall _ _, _ -> _ |- _ => rewrite app_nil_r in H; apply H end. lia.
    - intros gs rest l kids stk sp G. init.
      pose proof (gen_head _ _ G0_1 ltac:(discriminate) ltac:(discriminate)) as S1. cbn [heads] in S1.
      pose proof (gen_starts _ _ G0_2) as S2. cbn beta iota in S2.
      pose proof (gen_stm t _ _ G0_1) as HX. cbn [stm] in HX.
      first_off [R_BRACE; EOF]. apply (pw_call t F_items). cbn [body]. unfold items_body. pst.
      puse HX; [next_off; fol|]. split; [reflexivity|]. eapply (IHG0_2 eq_refl); [eassumption|unfold off; cbn [existsb]; kev; reflexivity|lia|].
      intros ? ? ?. rewrite <- app_assoc. cbn [app]. match goal with H : forall _ _, _ -> _ |- _ => apply H end. lia.
  Qed.

  Ltac fin := match goal with H : forall _ _, _ -> upto _ _ _ _ |- _ => norm; rewrite <- ?app_assoc in H; cbn [app] in H; apply H end.
  Lemma p_modules ms : gen Modules ms -> forall gs rest l kids stk sp (G : unit -> ast -> Prop),
    fits ms gs -> sp + 5 * size gs + 13 <= 10000 ->
    (forall l sp', sp' <= sp + 5 * size gs -> pw (call F_address_items) (TS rest l (kids ++ ms) stk sp') G) ->
    pw (call F_address_items) (TS (gs ++ rest) l kids stk sp) G.
  Proof.
    intros G0. remember Modules as x eqn:X. induction G0; try discriminate X.
    - intros gs rest l kids stk sp G. init. match goal with H : forall _ _, _ -> _ |- _ => rewrite app_nil_r in H; apply H end. lia.
    - intros gs rest l kids stk sp G. init.
      pose proof (gen_head _ _ G0_1 ltac:(discriminate) ltac:(discriminate)) as S1. cbn [heads] in S1.
      pose proof (gen_stm t _ _ G0_1) as HX. cbn [stm] in HX.
      first_is. apply (pw_call t F_address_items). cbn [body]. unfold address_items_body. pst.
      puse HX. split; [reflexivity|]. eapply (IHG0_2 eq_refl); [eassumption|lia|].
      intros ? ? ?. fin. lia.
  Qed.

  Lemma p_top x : gen TopItem [x] -> forall gs rest l kids stk sp (G : unit -> ast -> Prop),
    fits [x] gs -> sp + 5 * size gs + 14 <= 10000 ->
    (forall l sp', sp' <= sp + 5 * size gs -> pw (call F_root) (TS rest l (kids ++ [x]) stk sp') G) ->
    pw (call F_root) (TS (gs ++ rest) l kids stk sp) G.
  Proof.
    intros G0 gs rest l kids stk sp G. inversion G0; subst.
    all: init; apply (pw_call t F_root); cbn [body]; unfold root_body.
    - match goal with G : gen Module [_] |- _ => 
        pose proof (gen_head _ _ G ltac:(discriminate) ltac:(discriminate)) as S1; cbn [heads] in S1;
        pose proof (gen_stm t _ _ G) as HX; cbn [stm] in HX end.
      first_is. do 2 pst. puse HX. split; [reflexivity|]. fin. lia.
    - match goal with G : gen Items _ |- _ => pose proof (gen_stm t _ _ G) as HX; cbn [stm] in HX end.
      do 3 pst. apply pw_step; [solve [solve_adds]|]. unfold script. ost. unfold item_list. ost. ouse HX. ost. split; [reflexivity|].
      fin. lia.
    - match goal with G : gen Modules _ |- _ => pose proof (gen_stm t _ _ G) as HX; cbn [stm] in HX end.
      match goal with G : gen AddressName _ |- _ => pose proof (gen_stm t _ _ G) as HA; cbn [stm] in HA end.
      do 4 pst. apply pw_step; [solve [solve_adds]|]. unfold address. ost. unfold address_ident_r. ost.
      apply ow_tw. eapply r_address_name; [exact HA|eassumption|lia|]. intros l' sp' B. ost.
      unfold address_item_list. ost. ouse HX. ost. split; [reflexivity|]. asize HA.
      fin. lia.
  Qed.

  Lemma p_file f : gen File f -> forall gs rest l kids stk sp (G : unit -> ast -> Prop),
    fits f gs -> sp + 5 * size gs + 14 <= 10000 ->
    (forall l sp', sp' <= sp + 5 * size gs -> pw (call F_root) (TS rest l (kids ++ f) stk sp') G) ->
    pw (call F_root) (TS (gs ++ rest) l kids stk sp) G.
  Proof.
    intros G0. remember File as x eqn:X. induction G0; try discriminate X; intros gs rest l kids stk sp G; init.
    - match goal with H : forall _ _, _ -> _ |- _ => rewrite app_nil_r in H; apply H end. lia.
    - eapply p_top; [eassumption|eassumption|lia|]. intros ? ? ?. eapply (IHG0_2 eq_refl); [eassumption|lia|].
      intros ? ? ?. fin. lia.
  Qed.

  Ltac useexpr H := eapply r_expr; [exact H|eassumption|endk|lia|intros ? ? ?; cbv beta].
  Lemma p_stmts ss : finished ss -> forall gs rest l kids stk sp (G : unit -> ast -> Prop),
    fits ss gs -> sp + 5 * size gs + 14 <= 10000 ->
    (forall l sp', sp' <= sp + 5 * size gs -> pw (call F_block_contents) (TS rest l (kids ++ ss) stk sp') G) ->
    pw (call F_block_contents) (TS (gs ++ rest) l kids stk sp) G.
  Proof.
    induction 1 as [|e ss GE _ IH|lt ss GL _ IH]; intros gs rest l kids stk sp G.
    - init. match goal with H : forall _ _, _ -> _ |- _ => rewrite app_nil_r in H; apply H end. lia.
    - init. pose proof (gen_head _ _ GE ltac:(discriminate) ltac:(discriminate)) as S1. cbn [heads] in S1.
      pose proof (gen_stm t _ _ GE) as HE. cbn [stm] in HE. first_off [R_BRACE; EOF; LET_KW].
      apply (pw_call t F_block_contents). cbn [body]. unfold block_contents_body. pst. apply pw_step; [solve [solve_adds]|]. unfold stmt. ost.
      apply ow_tw. useexpr HE. ost. unfold stmt_semi. ost. split; [reflexivity|]. eapply IH; [eassumption|lia|]. intros. fin. lia.
    - pose proof (gen_stm t _ _ GL) as HL. cbn [stm] in HL. destruct HL as (p & a & i & -> & HP & HA & HI).
      destruct HA as [-> | (ty & -> & HT)]; destruct HI as [-> | (e & -> & HE)]; cbn [app]; init;
        apply (pw_call t F_block_contents); cbn [body]; unfold block_contents_body; pst; (apply pw_step; [solve [solve_adds]|]); unfold stmt; ost; unfold let_stmt; ost; unfold pattern; ouse HP; ost;
        try (unfold ascription; ost; unfold type_; ouse HT; ost); try (apply ow_tw; useexpr HE; ost); unfold stmt_semi; ost;
        (split; [reflexivity|]; eapply IH; [eassumption|lia|]; intros; fin; lia).
  Qed.

  (** ** From here on, whatever follows *)
  Notation hold stk kids o := (fun _ => holds stk kids o).
  Definition later (o : opened) (rest : list group) (sp0 : N) : Prop := off [SEMICOLON] (gcur rest) /\
    forall l kids stk sp', sp' <= sp0 -> pw (call F_items) (TS rest l kids stk sp') (hold stk kids o).

  Lemma pw_grown {A} (p : prog A) gs l kids stk sp : adds p -> pw p (TS gs l kids stk sp) (hold stk kids []).
  Proof.
    intros Ad. apply pw_any. apply holds_more; [exact Ad|]. split; [reflexivity|]. exists []. split; [symmetry; apply app_nil_r|constructor].
  Qed.
  (** the program goes on after the open construct *)
  Lemma pw_after {A B} (p : prog A) (q : A -> prog B) st stk kids o : (forall a, adds (q a)) ->
    pw p st (hold stk kids o) -> pw (pbind p q) st (hold stk kids o).
  Proof. intros Ad H. apply pw_then. eapply pw_mono; [exact H|]. intros a x X. apply holds_more; [apply Ad|exact X]. Qed.
  (** the open construct is closed *)
  Lemma pw_close {A} (p : prog A) m k st stk kids c o : k <> TOMBSTONE -> k <> BIN_EXPR ->
    pw p st (hold (Open m None kids :: stk) c o) -> pw (p ;; complete m k ;; Ret tt) st (hold stk kids ((k, c) :: o)).
  Proof. intros T T2 H. apply pw_then. eapply pw_mono; [exact H|]. intros a x X. apply holds_last; assumption. Qed.
  Lemma pw_brace {A} (p : prog A) m k st stk kids c o : k <> TOMBSTONE -> k <> BIN_EXPR ->
    pw p st (hold (Open m None kids :: stk) c o) -> pw (p ;; expect R_BRACE ;; complete m k ;; Ret tt) st (hold stk kids ((k, c) :: o)).
  Proof. intros T T2 H. apply pw_then. eapply pw_mono; [exact H|]. intros a x X. apply holds_brace; assumption. Qed.
  Lemma pw_brace1 {A} (p : prog A) m k st stk kids c o : k <> TOMBSTONE -> k <> BIN_EXPR ->
    pw p st (hold (Open m None kids :: stk) c o) -> pw (p ;; expect R_BRACE ;; complete m k) st (hold stk kids ((k, c) :: o)).
  Proof.
    intros T T2 H. apply pw_then. eapply pw_mono; [exact H|]. intros a x X. apply wp_bind. eapply wp_mono; [|apply holds_more; [|exact X]; solve_adds].
    cbv beta. intros ? ? Y. apply holds_close; assumption.
  Qed.
  (** what stood in the construct before *)
  Lemma holds_kids stk kids c o x : holds stk (kids ++ c) o x -> a_stack x = stk /\ exists f, a_kids x = kids ++ c ++ f /\ begins o f.
  Proof. intros (E & f & K & B). split; [exact E|]. exists f. rewrite app_assoc. auto. Qed.

  Lemma later_here rest sp0 : off [SEMICOLON] (gcur rest) -> later [] rest sp0.
  Proof. intros O. split; [exact O|]. intros. apply pw_grown. solve_adds. Qed.

  Lemma item_list_holds is o g gs rest l kids stk sp sp0 : gen Items is -> fst (fst g) = L_BRACE -> fits is gs -> later o rest sp0 ->
    sp + 5 * size gs + 20 <= 10000 -> sp + 5 * size gs + 10 <= sp0 ->
    pw item_list (TS (g :: gs ++ rest) l kids stk sp) (hold stk kids ((ITEM_LIST, TTok L_BRACE :: is) :: o)).
  Proof.
    intros G K F [O D] L M. destruct g as [[k w] c]. cbn [fst] in K. subst k. unfold item_list. do 3 pst.
    apply pw_brace; [discriminate|discriminate|]. eapply p_items; [exact G|exact F|exact O|lia|]. intros l' sp' B. cbn [app]. apply D. lia.
  Qed.

  Lemma in_module_holds o0 o gs rest l kids stk sp sp0 : in_module o0 -> ffits (opened_leaves o0) gs -> later o rest sp0 ->
    sp + 5 * size gs + 35 <= 10000 -> sp + 5 * size gs + 20 <= sp0 ->
    gcur (gs ++ rest) = MODULE_KW /\ pw module (TS (gs ++ rest) l kids stk sp) (hold stk kids (o0 ++ o)).
  Proof.
    intros H Fh B L M. destruct H as [h is H G]. unfold opened_leaves, ffits in Fh. cbn [flat_map snd app leaves] in Fh.
    destruct H as [|a GA].
    - cbn [flat_map leaves app name_node] in Fh. rewrite app_nil_r in Fh. fitinv. sizes. cbn [app]. split; [reflexivity|]. unfold module. pst. do 2 pst.
      apply pw_step; [solve [solve_adds]|]. apply o_nth1; [reflexivity|unfold opens; tauto|]. kev. split; [reflexivity|]. cbv iota.
      do 3 pst. apply pw_close; [discriminate|discriminate|]. eapply item_list_holds; try eassumption; try reflexivity; lia.
    - pose proof (gen_stm t _ _ GA) as HA. cbn [stm] in HA.

      cbn [flat_map leaves app name_node] in Fh. rewrite ?app_nil_r, <- ?app_assoc in Fh. cbn [app] in Fh. inversion Fh as [|? g1 ? r1 K1 F1]; subst.
      apply fits_app in F1 as (ga & r2 & Fa & F2 & ->).
      assert (X : exists g, ga = [g] /\ (fst (fst g) = IDENT \/ fst (fst g) = INTEGER_NUMBER)).
      { destruct HA as [E|E]; injection E as ->; cbn [leaves] in Fa; clear - Fa; inversion Fa as [|? g ? r0 K0 F0]; subst; inversion F0; subst;
          exists g; (split; [reflexivity|]); cbn in K0; tauto. }
      destruct X as (g2 & -> & X). clear Fh. assert (Fa' : fits [a] [g2]) by (unfold fits; cbn [flat_map]; rewrite app_nil_r; exact Fa). clear Fa. fitinv. sizes. repeat (progress (rewrite <- ?app_assoc; cbn [app])). split; [reflexivity|]. unfold module. do 3 pst.
      apply pw_step; [solve [solve_adds]|]. unfold nth_at. ost1. apply ow_tw. apply r_nth1; [lia|exact X|]. intros y Hy. ost.
      rewrite (Hy COLON_COLON ltac:(unfold opens; tauto)). kev. split; [reflexivity|]. cbv iota.
      apply pw_step; [solve [solve_adds]|]. ost. unfold address_ident_r. ost. apply ow_tw.
      match goal with |- ParserTotal.tw _ _ (TS (?g :: ?r) _ _ _ _) _ => change (g :: r) with ([g] ++ r) end.
      eapply r_address_name; [exact HA|exact Fa'|lia|].
      intros la sp' B'. cbn [app]. ost. split; [reflexivity|].
      do 2 pst. apply pw_close; [discriminate|discriminate|]. cbn [app]. eapply item_list_holds; try eassumption; try reflexivity; lia.
  Qed.

  Lemma later_function ps r ss gs rest sp0 : gen (Commas Param) ps -> gen RetType r -> finished ss ->
    ffits (opened_leaves [(FUNCTION_DEF, TTok FUN_KW :: name_node :: TNode PARAM_LIST (TTok L_PAREN :: ps ++ [TTok R_PAREN]) :: r);
                          (BLOCK_EXPR, TTok L_BRACE :: ss)]) gs ->
    sp0 + 5 * size gs + 60 <= 10000 ->
    later [(FUNCTION_DEF, TTok FUN_KW :: name_node :: TNode PARAM_LIST (TTok L_PAREN :: ps ++ [TTok R_PAREN]) :: r);
           (BLOCK_EXPR, TTok L_BRACE :: ss)] (gs ++ rest) sp0.
  Proof.
    intros GP GR GS F L. unfold opened_leaves, ffits in F. cbn [flat_map snd app leaves name_node] in F.
    pose proof (gen_stm t _ _ GP) as HP. cbn [stm s_commas] in HP. pose proof (gen_stm t _ _ GR) as HR. cbn [stm] in HR.
    rewrite ?app_nil_r in F. rewrite ?flat_map_app in F. cbn [flat_map leaves app] in F. rewrite <- ?app_assoc in F. cbn [app] in F.
    fitinv. sizes. repeat (progress (rewrite <- ?app_assoc; cbn [app])).
    split; [reflexivity|]. intros lx kids stk sp' B.
    apply (pw_call t F_items). cbn [body]. unfold items_body. pst. apply pw_after; [intros; solve_adds|].
    unfold Grammar.item. pst. apply pw_after; [intros; solve_adds|]. unfold opt_item. pst. unfold function_def. do 4 pst.
    apply pw_step; [solve [solve_adds]|]. unfold param_list. ost. ouse HP. ost. split; [reflexivity|].
    destruct HR as [-> | (ty & -> & HT)]; fitinv; sizes; repeat (progress (rewrite <- ?app_assoc; cbn [app])).
    - apply pw_step; [solve [solve_adds]|]. unfold opt_ret_type. ost. split; [reflexivity|].
      apply pw_close; [discriminate|discriminate|]. unfold block_expr. pst. apply pw_after; [intros; solve_adds|].
      unfold block_expr_unchecked. do 3 pst. unfold block_contents. apply pw_brace1; [discriminate|discriminate|].
      eapply p_stmts; [exact GS|eassumption|lia|]. intros. apply pw_grown. solve_adds.
    - apply pw_step; [solve [solve_adds]|]. unfold opt_ret_type. ost. unfold type_. ouse HT. ost. split; [reflexivity|].
      apply pw_close; [discriminate|discriminate|]. unfold block_expr. pst. apply pw_after; [intros; solve_adds|].
      unfold block_expr_unchecked. do 3 pst. unfold block_contents. apply pw_brace1; [discriminate|discriminate|].
      eapply p_stmts; [exact GS|eassumption|lia|]. intros. apply pw_grown. solve_adds.
  Qed.

  Lemma adds_root : adds (call F_root).
  Proof. apply adds_grow; [exact (fun _ => I)|]. intros st b st' (E & _ & new & K & _). split; [exact E|]. eauto. Qed.
  Lemma in_items_holds o0 o gs rest l kids stk sp sp0 : in_items o0 -> ffits (opened_leaves o0) gs -> later o rest sp0 ->
    sp + 5 * size gs + 80 <= 10000 -> sp + 5 * size gs + 50 <= sp0 ->
    pw (call F_root) (TS (gs ++ rest) l kids stk sp) (hold stk kids (o0 ++ o)).
  Proof.
    intros H F D L M. apply (pw_call t F_root). cbn [body]. unfold root_body. destruct H as [o0 H|is G|a ms o0 GA GM H].
    - assert (X : forall l sp', sp' <= sp + 5 -> gcur (gs ++ rest) = MODULE_KW /\ pw module (TS (gs ++ rest) l kids stk sp') (hold stk kids (o0 ++ o)))
        by (intros; eapply in_module_holds; [exact H|exact F|exact D|lia|lia]).
      destruct (X l sp ltac:(lia)) as [K _]. do 2 pst. apply pw_after; [intros; apply adds_root|]. apply X. lia.
    - unfold opened_leaves, ffits in F. cbn [flat_map snd app leaves] in F. rewrite app_nil_r in F. fitinv. sizes. cbn [app].
      do 3 pst. apply pw_after; [intros; apply adds_root|]. unfold script. pst. apply pw_step; [solve [solve_adds]|]. ost. split; [reflexivity|].
      pst. apply pw_close; [discriminate|discriminate|]. eapply item_list_holds; try eassumption; try reflexivity; lia.
    - pose proof (gen_stm t _ _ GA) as HA. cbn [stm] in HA.
      unfold opened_leaves, ffits in F. cbn [flat_map snd app leaves] in F. rewrite ?app_nil_r, <- ?app_assoc in F. cbn [app] in F.
      inversion F as [|? g1 ? r1 K1 F1]; subst. apply fits_app in F1 as (ga & r2 & Fa & F2 & ->).
      inversion F2 as [|? g2 ? r3 K2 F3]; subst. apply fits_app in F3 as (gm & gi & Fm & Fi & ->). clear F F2.
      destruct g1 as [[k1 w1] c1]. cbn [fst stands_for] in K1. subst k1. destruct g2 as [[k2 w2] c2]. cbn [fst stands_for] in K2. subst k2.
      assert (Fa' : fits [a] ga) by (unfold fits; cbn [flat_map]; rewrite app_nil_r; exact Fa).
      sizes. asize HA. cbn [app]. repeat (progress (rewrite <- ?app_assoc; cbn [app])).
      do 4 pst. apply pw_after; [intros; apply adds_root|]. unfold address. pst. apply pw_step; [solve [solve_adds]|]. ost. split; [reflexivity|].
      apply pw_step; [solve [solve_adds]|]. unfold address_ident_r. ost. apply ow_tw. eapply r_address_name; [exact HA|exact Fa'|lia|].
      intros la sp' B'. ost. split; [reflexivity|]. pst.
      apply pw_close; [discriminate|discriminate|]. unfold address_item_list. do 3 pst. apply pw_brace; [discriminate|discriminate|].
      eapply p_modules; [exact GM|exact Fm|lia|]. intros lb sp2 B2.
      assert (X : forall l sp', sp' <= sp2 + 5 -> gcur (gi ++ rest) = MODULE_KW /\ forall kids stk, pw module (TS (gi ++ rest) l kids stk sp') (hold stk kids (o0 ++ o))).
      { intros lc sp3 B3. assert (Y : forall ks sk, gcur (gi ++ rest) = MODULE_KW /\ pw module (TS (gi ++ rest) lc ks sk sp3) (hold sk ks (o0 ++ o)))
          by (intros; eapply in_module_holds; [exact H|exact Fi|exact D|lia|lia]).
        split; [apply (Y [] [])|]. intros ks sk. apply Y. }
      destruct (X lb sp2 ltac:(lia)) as [K _]. apply (pw_call t F_address_items). cbn [body]. unfold address_items_body. pst.
      apply pw_after; [intros; solve_adds|]. apply X. lia.
  Qed.
  Lemma place_holds o gs rest l kids stk sp : place o -> ffits (opened_leaves o) gs -> (in_items o -> off [SEMICOLON] (gcur rest)) ->
    sp + 5 * size gs + 120 <= 10000 -> pw (call F_root) (TS (gs ++ rest) l kids stk sp) (hold stk kids o).
  Proof.
    intros P F O L. destruct P as [|a ms GA GM|o H|o ps r ss H GP GR GS].
    - inversion F; subst. apply pw_grown. apply adds_root.
    - pose proof (gen_stm t _ _ GA) as HA. cbn [stm] in HA.
      unfold opened_leaves, ffits in F. cbn [flat_map snd app leaves] in F. rewrite ?app_nil_r, <- ?app_assoc in F. cbn [app] in F.
      inversion F as [|? g1 ? r1 K1 F1]; subst. apply fits_app in F1 as (ga & r2 & Fa & F2 & ->).
      inversion F2 as [|? g2 ? gm K2 Fm]; subst. clear F F2.
      destruct g1 as [[k1 w1] c1]. cbn [fst stands_for] in K1. subst k1. destruct g2 as [[k2 w2] c2]. cbn [fst stands_for] in K2. subst k2.
      assert (Fa' : fits [a] ga) by (unfold fits; cbn [flat_map]; rewrite app_nil_r; exact Fa).
      sizes. asize HA. cbn [app]. repeat (progress (rewrite <- ?app_assoc; cbn [app])).
      apply (pw_call t F_root). cbn [body]. unfold root_body.
      do 4 pst. apply pw_after; [intros; apply adds_root|]. unfold address. pst. apply pw_step; [solve [solve_adds]|]. ost. split; [reflexivity|].
      apply pw_step; [solve [solve_adds]|]. unfold address_ident_r. ost. apply ow_tw. eapply r_address_name; [exact HA|exact Fa'|lia|].
      intros la sp' B'. ost. split; [reflexivity|]. pst.
      apply pw_close; [discriminate|discriminate|]. unfold address_item_list. do 3 pst. apply pw_brace; [discriminate|discriminate|].
      eapply p_modules; [exact GM|exact Fm|lia|]. intros lb sp2 B2. apply pw_grown. solve_adds.
    - rewrite <- (app_nil_r o). eapply in_items_holds; [exact H|exact F|apply later_here; exact (O H)|lia|apply N.le_refl].
    - unfold opened_leaves, ffits in F. rewrite flat_map_app in F. apply fits_app in F as (g1 & g2 & F1 & F2 & ->). sizes. rewrite <- app_assoc.
      eapply in_items_holds; [exact H|exact F1|apply later_function; [exact GP|exact GR|exact GS|exact F2|]| |apply N.le_refl]; lia.
  Qed.
End Places.

(** ** Errors are inside the items of the file *)
Section Root.
  Variable t : text.
  Definition no_error (f : forest) : Prop := forall m, ~ In (TErr m) f.

  Lemma at_inv n k s b s' st : rel t s st -> interp (run n) (at_ k) s = Ok (b, s') -> b = kind_eqb (a_cur st) k /\ rel t s' st.
  Proof.
    intros R E. destruct (sound t (at_ k) (fun b x => b = kind_eqb (a_cur st) k /\ x = st) st n s b s' R) as (x & R' & X & ->); auto.
    apply wp_at. auto.
  Qed.
  Lemma current_inv n s b s' st : rel t s st -> interp (run n) current s = Ok (b, s') -> b = a_cur st /\ rel t s' st.
  Proof.
    intros R E. destruct (sound t current (fun b x => b = a_cur st /\ x = st) st n s b s' R) as (x & R' & X & ->); auto.
    apply wp_current. auto.
  Qed.
  Ltac round E := cbn [run body] in E; unfold root_body in E;
    repeat (match type of E with
      | interp _ (pbind _ _) _ = _ => rewrite interp_bind in E; apply bind_ok in E as ([? ?] & ? & E)
      | interp _ (if ?b then _ else _) _ = _ => destruct b eqn:?
      end; try match goal with
      | R : rel t ?s ?st, H : interp (run _) (at_ _) ?s = Ok _ |- _ => destruct (at_inv _ _ _ _ _ _ R H) as [-> ?]; clear H; clear R; cbn [a_cur] in E
      | R : rel t ?s ?st, H : interp (run _) current ?s = Ok _ |- _ => destruct (current_inv _ _ _ _ _ R H) as [-> ?]; clear H; clear R; cbn [a_cur] in E
      end).

  Definition stuck_at (c : kind) : bool :=
    negb (kind_eqb c EOF || kind_eqb c MODULE_KW || kind_eqb c SCRIPT_KW || kind_eqb c ADDRESS_KW || is_trivia c).
  Lemma root_loops n : forall s c l K stk r, rel t s (Ast c l K stk) -> stuck_at c = true -> run n F_root s = Ok r -> False.
  Proof.
    induction n as [|n IH]; intros s c l K stk [u s'] R S E; [discriminate E|]. unfold stuck_at in S. round E.
    all: cbn [orb negb] in S; rewrite ?orb_true_r in S; try discriminate S.
    match goal with R : rel t ?s (Ast ?c _ _ ?k), H : interp _ (error ?m) ?s = Ok _ |- _ =>
      destruct (sound t (error m) (fun _ x => exists l K, x = Ast c l K k) _ _ _ _ _ R ltac:(apply wp_error; eauto) H) as (x & R' & l' & K' & ->) end.
    unfold call in E. cbn [interp] in E. apply bind_ok in E as ([b s1] & E1 & _). 
    refine (IH _ _ _ _ _ _ R' _ E1). unfold stuck_at.
    repeat match goal with H : _ = false |- _ => rewrite H; clear H end. reflexivity.
  Qed.

  (** exactly one node *)
  Definition one {A} (p : prog A) : Prop := forall c l K s, wp p (fun _ x => a_stack x = s /\ exists k cs, a_kids x = K ++ [TNode k cs]) (Ast c l K s).
  Ltac one_ := intros c l K s; repeat step1; cbn [opt_tree app a_stack a_kids]; (split; [reflexivity|eexists; eexists; reflexivity]).
  Lemma one_module : one module. Proof. unfold module. one_. Qed.
  Lemma one_script : one script. Proof. unfold script. one_. Qed.
  Lemma one_address : one address. Proof. unfold address. one_. Qed.

  Lemma root_items n : forall s c l K stk u s', rel t s (Ast c l K stk) -> run n F_root s = Ok (u, s') ->
    exists st' new, rel t s' st' /\ a_stack st' = stk /\ a_kids st' = K ++ new /\ no_error new.
  Proof.
    induction n as [|n IH]; intros s c l K stk u s' R E; [discriminate E|]. 
    assert (Q : stuck_at c = true -> False) by (intros S; exact (root_loops (Datatypes.S n) s c l K stk _ R S E)).
    assert (Step : forall s0 s1 c0 l0 (x : ast) u2 s2 y, rel t s0 (Ast c0 l0 K stk) -> rel t s1 x -> a_stack x = stk -> a_kids x = K ++ [y] -> (forall m, y <> TErr m) ->
      interp (run n) (call F_root) s1 = Ok (u2, s2) -> exists st' new, rel t s2 st' /\ a_stack st' = stk /\ a_kids st' = K ++ new /\ no_error new).
    { clear - IH. intros s0 s1 c0 l0 [c1 l1 K1 k1] u2 s2 y R R1 X1 X2 X3 E. cbn [a_stack a_kids] in *. subst k1 K1.
      unfold call in E. cbn [interp] in E. apply bind_ok in E as ([b s3] & E3 & E). injection E as _ <-.
      destruct (IH _ _ _ _ _ _ _ R1 E3) as (st' & new & R' & Y1 & Y2 & Y3). exists st', (y :: new). rewrite <- app_assoc in Y2. cbn [app] in Y2.
      split; [exact R'|]. split; [exact Y1|]. split; [exact Y2|]. intros m [Z|Z]; [exact (X3 m Z)|]. exact (Y3 m Z). }
    round E.
    - cbn [interp] in E. injection E as _ <-. eexists _, []. split; [eassumption|]. cbn [a_stack a_kids]. rewrite app_nil_r. split; [reflexivity|].
      split; [reflexivity|]. intros m [].
    - match goal with R : rel t ?s (Ast ?c ?l ?K ?k), H : interp _ module ?s = Ok _ |- _ =>
        destruct (sound t module _ _ _ _ _ _ R (one_module c l K k) H) as (x & R1 & X1 & kk & cs & X2);
        exact (Step _ _ _ _ _ _ _ (TNode kk cs) R R1 X1 X2 ltac:(discriminate) E) end.
    - match goal with R : rel t ?s (Ast ?c ?l ?K ?k), H : interp _ script ?s = Ok _ |- _ =>
        destruct (sound t script _ _ _ _ _ _ R (one_script c l K k) H) as (x & R1 & X1 & kk & cs & X2);
        exact (Step _ _ _ _ _ _ _ (TNode kk cs) R R1 X1 X2 ltac:(discriminate) E) end.
    - match goal with R : rel t ?s (Ast ?c ?l ?K ?k), H : interp _ address ?s = Ok _ |- _ =>
        destruct (sound t address _ _ _ _ _ _ R (one_address c l K k) H) as (x & R1 & X1 & kk & cs & X2);
        exact (Step _ _ _ _ _ _ _ (TNode kk cs) R R1 X1 X2 ltac:(discriminate) E) end.
    - match goal with R : rel t ?s (Ast ?c ?l ?K ?k), H : interp _ bump_any ?s = Ok _ |- _ =>
        destruct (sound t bump_any (fun _ x => a_stack x = k /\ exists j, a_kids x = K ++ [TTok j]) _ _ _ _ _ R ltac:(apply wp_bump_any; [intros X; rewrite X in *; discriminate|intros; cbn [a_stack a_kids]; eauto]) H) as (x & R1 & X1 & j & X2);
        exact (Step _ _ _ _ _ _ _ (TTok j) R R1 X1 X2 ltac:(discriminate) E) end.
    - exfalso. apply Q. unfold stuck_at. repeat match goal with H : _ = false |- _ => rewrite H; clear H end. reflexivity.
  Qed.
End Root.

(** ** Where the messages are *)
Lemma noted_app f g n : noted n (f ++ g) = noted n f ++ noted (n + length (solid_leaves f)) g.
Proof.
  revert n. induction f as [|x f IH]; intros n; cbn [app noted].
  - cbn. rewrite Nat.add_0_r. reflexivity.
  - rewrite IH, <- app_assoc. f_equal. f_equal. change (x :: f) with ([x] ++ f). rewrite solid_leaves_app, app_length. f_equal. lia.
Qed.
Lemma noted_clean f : forallb clean f = true -> forall n, noted n f = [].
Proof.
  assert (X : forall x, clean x = true -> forall n, noted1 n x = []).
  { induction x as [k cs IH|k|m] using tree_ind2; intros C n; [|reflexivity|discriminate C]. rewrite noted1_node. cbn [clean] in C. revert n.
    induction IH as [|x cs H _ IHc]; intros n; [reflexivity|]. cbn [forallb] in C. apply andb_true_iff in C as [C1 C2]. cbn [noted].
    rewrite (H C1), (IHc C2). reflexivity. }
  induction f as [|x f IH]; intros C n; [reflexivity|]. cbn [forallb] in C. apply andb_true_iff in C as [C1 C2]. cbn [noted].
  rewrite (X _ C1), (IH C2). reflexivity.
Qed.
Lemma noted_from f : forall n m j, In (m, j) (noted n f) -> (n <= j)%nat.
Proof.
  assert (X : forall x n m j, In (m, j) (noted1 n x) -> (n <= j)%nat).
  { induction x as [k cs IH|k|m0] using tree_ind2; intros n m j H; [|destruct H|destruct H as [H|[]]; injection H as _ <-; lia].
    rewrite noted1_node in H. revert n H. induction IH as [|x cs Hx _ IHc]; intros n H; [destruct H|]. cbn [noted] in H.
    apply in_app_or in H as [H|H]; [eauto|]. apply IHc in H. lia. }
  induction f as [|x f IH]; intros n m j H; [destruct H|]. cbn [noted] in H. apply in_app_or in H as [H|H]; [eauto|]. apply IH in H. lia.
Qed.
Lemma clean_leaves f : forallb clean f = true -> solid_leaves f = flat_map leaves f.
Proof.
  assert (X : forall x, clean x = true -> filter (fun k => negb (is_trivia k)) (leaves x) = leaves x).
  { induction x as [k cs IH|k|m] using tree_ind2; intros C; [|cbn in *; rewrite C; reflexivity|discriminate C]. cbn [leaves]. cbn [clean] in C.
    induction IH as [|x cs H _ IHc]; [reflexivity|]. cbn [forallb] in C. apply andb_true_iff in C as [C1 C2]. cbn [flat_map].
    rewrite filter_app, (H C1), (IHc C2). reflexivity. }
  unfold solid_leaves. induction f as [|x f IH]; intros C; [reflexivity|]. cbn [forallb] in C. apply andb_true_iff in C as [C1 C2]. cbn [flat_map].
  rewrite filter_app, (X _ C1), (IH C2). reflexivity.
Qed.

Definition clean_opened (o : opened) : Prop := Forall (fun p => forallb clean (snd p) = true) o.
Lemma begins_noted o f : begins o f -> clean_opened o -> forall n m j, In (m, j) (noted n f) -> (n + length (opened_leaves o) <= j)%nat.
Proof.
  induction 1 as [f|k c o f more B IH]; intros C n m j H.
  - apply noted_from in H. cbn. lia.
  - inversion C as [|? ? C1 C2]; subst. cbn [snd] in C1. cbn [noted] in H. rewrite noted1_node, noted_app, (noted_clean _ C1) in H. cbn [app] in H.
    unfold opened_leaves. cbn [flat_map snd]. rewrite app_length. apply in_app_or in H as [H|H].
    + apply (IH C2) in H. rewrite (clean_leaves _ C1) in H. unfold opened_leaves in H. lia.
    + apply noted_from in H. assert (L : (length (flat_map leaves c) + length (opened_leaves o) <= length (solid_leaves [TNode k (c ++ f)]))%nat).
      { change (solid_leaves [TNode k (c ++ f)]) with (filter (fun k => negb (is_trivia k)) (flat_map leaves (c ++ f) ++ [])). rewrite app_nil_r.
        change (filter _ _) with (solid_leaves (c ++ f)). rewrite solid_leaves_app, app_length, (clean_leaves _ C1).
        apply Nat.add_le_mono_l. clear - B C2. induction B as [f|k c o f more B IH]; [cbn; lia|]. inversion C2 as [|? ? C1 C3]; subst. cbn [snd] in C1.
        change (TNode k (c ++ f) :: more) with ([TNode k (c ++ f)] ++ more). rewrite solid_leaves_app, app_length.
        change (solid_leaves [TNode k (c ++ f)]) with (filter (fun k => negb (is_trivia k)) (flat_map leaves (c ++ f) ++ [])). rewrite app_nil_r.
        change (filter _ _) with (solid_leaves (c ++ f)). rewrite solid_leaves_app, app_length, (clean_leaves _ C1).
        unfold opened_leaves. cbn [flat_map snd]. rewrite app_length. specialize (IH C3). unfold opened_leaves in IH. lia. }
      unfold opened_leaves in L. lia.
Qed.
Lemma begins_strip o f : begins o f -> clean_opened o -> begins o (strip_forest f).
Proof.
  induction 1 as [f|k c o f more B IH]; intros C; [constructor|]. inversion C as [|? ? C1 C2]; subst. cbn [snd] in C1.
  unfold strip_forest in *. cbn [flat_map strip_tree app]. rewrite flat_map_app. destruct (clean_forest _ C1) as [E _]. unfold strip_forest in E. rewrite E.
  constructor. exact (IH C2).
Qed.
Lemma finished_clean ss : finished ss -> forallb clean ss = true.
Proof.
  induction 1 as [|e ss G _ IH|lt ss G _ IH]; [reflexivity| |]; cbn [forallb clean]; pose proof (gen_clean _ _ G) as X; cbn [forallb] in X |- *.
  - rewrite IH. apply andb_true_iff in X as [-> _]. reflexivity.
  - rewrite forallb_app, X, IH. reflexivity.
Qed.
Lemma in_module_clean o : in_module o -> clean_opened o.
Proof.
  intros [h is H G]. constructor; [|constructor; [|constructor]]; cbn [snd].
  - destruct H as [|a GA]; [reflexivity|]. pose proof (gen_clean _ _ GA) as X. cbn [forallb clean] in *. rewrite andb_true_r in X. rewrite X. reflexivity.
  - cbn [forallb clean]. exact (gen_clean _ _ G).
Qed.
Lemma in_items_clean o : in_items o -> clean_opened o.
Proof.
  intros [o0 H|is G|a ms o0 GA GM H].
  - apply in_module_clean, H.
  - constructor; [reflexivity|]. constructor; [exact (gen_clean _ _ G)|constructor].
  - pose proof (gen_clean _ _ GA) as X. constructor; [cbn [snd forallb clean] in *; rewrite andb_true_r in X; rewrite X; reflexivity|].
    constructor; [exact (gen_clean _ _ GM)|]. apply in_module_clean, H.
Qed.
Lemma place_clean o : place o -> clean_opened o.
Proof.
  intros [|a ms GA GM|o0 H|o0 ps r ss H GP GR GS].
  - constructor.
  - pose proof (gen_clean _ _ GA) as X. constructor; [cbn [snd forallb clean] in *; rewrite andb_true_r in X; rewrite X; reflexivity|].
    constructor; [exact (gen_clean _ _ GM)|]. constructor.
  - apply in_items_clean, H.
  - apply Forall_app. split; [apply in_items_clean, H|]. constructor; [|constructor; [exact (finished_clean _ GS)|constructor]].
    cbn [snd forallb clean name_node]. rewrite forallb_app. rewrite (gen_clean _ _ GP), (gen_clean _ _ GR). reflexivity.
Qed.

(** ** The whole text *)
Section Whole.
  Variable t : text.
  Notation pw := (upto t).

  Lemma lead_holds g gs l kids stk sp (G : unit -> ast -> Prop) : is_trivia (fst (fst g)) = true ->
    (forall sp', sp' <= sp + 4 -> pw (call F_root) (TS gs None (kids ++ [TTok (fst (fst g))]) stk sp') G) ->
    pw (call F_root) (TS (g :: gs) l kids stk sp) G.
  Proof.
    intros K H. apply (pw_call t F_root). cbn [body]. unfold root_body.
    assert (N : forall k, is_trivia k = false -> kind_eqb (fst (fst g)) k = false).
    { intros k Hk. destruct (kind_eqb (fst (fst g)) k) eqn:E; [|reflexivity]. apply kind_eqb_eq in E. subst k. congruence. }
    do 4 (apply pw_step; [solve [solve_adds]|]; apply o_at; split; [reflexivity|]; cbn [gcur]; rewrite N by reflexivity; cbv iota).
    apply pw_step; [solve [solve_adds]|]. apply ow_tw. apply r_current. split; [reflexivity|]. cbn [gcur]. rewrite K.
    apply pw_step; [solve [solve_adds]|]. apply ow_tw. apply r_bump_any; [intros E; rewrite E in K; discriminate|]. split; [reflexivity|]. apply H. lia.
  Qed.

  Definition starts_with (f : forest) (o : opened) (x : ast) : Prop := a_stack x = [] /\
    exists lead f', a_kids x = [TNode SOURCE_FILE (lead ++ f ++ f')] /\ begins o f' /\ Forall (fun y => exists k, y = TTok k /\ is_trivia k = true) lead.

  Lemma root_starts f o ga rest lead : gen File f -> place o -> ffits (flat_map leaves f ++ opened_leaves o) ga -> (in_items o -> off [SEMICOLON] (gcur rest)) ->
    5 * size ga + 140 <= 10000 -> (lead = [] \/ exists g, lead = [g] /\ is_trivia (fst (fst g)) = true) ->
    pw root (TS (lead ++ ga ++ rest) None [] [] 0) (fun _ => starts_with f o).
  Proof.
    intros G P F O L Ld. unfold root. apply pw_start. intros m. apply pw_then.
    apply fits_app in F as (g1 & g2 & F1 & F2 & ->). sizes. rewrite <- app_assoc.
    assert (X : forall l kids sp, sp <= 4 -> pw (call F_root) (TS (g1 ++ g2 ++ rest) l kids [Open m None []] sp) (fun _ => holds [Open m None []] (kids ++ f) o)).
    { intros l kids sp Hs. eapply p_file; [exact G|exact F1|lia|]. intros l' sp' B. apply place_holds; [exact P|exact F2|exact O|lia]. }
    assert (Y : forall kids x, Forall (fun y => exists k, y = TTok k /\ is_trivia k = true) kids -> holds [Open m None []] (kids ++ f) o x ->
      wp (complete m SOURCE_FILE ;; Ret tt) (fun _ => starts_with f o) x).
    { intros kids [c l ks s] K (E & f' & E' & B). cbn [a_stack a_kids] in *. subst s ks. apply wp_bind. apply wp_complete; [discriminate|intro; discriminate|].
      intros r. split; [reflexivity|]. exists kids, f'. cbn [opt_tree app a_kids]. rewrite <- app_assoc. auto. }
    destruct Ld as [-> | (g & -> & K)]; cbn [app].
    - eapply pw_mono; [apply (X None [] 0); lia|]. intros ? x Hx. apply (Y []); [constructor|exact Hx].
    - eapply pw_mono; [apply lead_holds; [exact K|]; intros sp' Hs; apply (X None [TTok (fst (fst g))]); lia|].
      intros ? x Hx. apply (Y [TTok (fst (fst g))]); [constructor; [eauto|constructor]|exact Hx].
  Qed.

  Lemma root_no_error n s u s' k : rel t s (Ast k None [] []) -> interp (run n) root s = Ok (u, s') ->
    exists f, den (ps_events s') [TNode SOURCE_FILE f] /\ no_error f.
  Proof.
    intros R E. unfold root in E. rewrite interp_bind in E. apply bind_ok in E as ([m s1] & E1 & E).
    destruct (sound t start (fun m x => x = Ast k None [] [Open m None []]) _ _ _ _ _ R ltac:(apply wp_start; reflexivity) E1) as (x & R1 & ->).
    rewrite interp_bind in E. apply bind_ok in E as ([u2 s2] & E2 & E). unfold call in E2. cbn [interp] in E2. apply bind_ok in E2 as ([b s3] & E3 & E2).
    injection E2 as _ <-. destruct (root_items t n _ _ _ _ _ _ _ R1 E3) as ([c2 l2 K2 k2] & new & R2 & X1 & X2 & X3). cbn [a_stack a_kids app] in *. subst k2 K2.
    assert (W : wp (complete m SOURCE_FILE ;; Ret tt) (fun _ x => a_stack x = [] /\ a_kids x = [TNode SOURCE_FILE new]) (Ast c2 l2 new [Open m None []])).
    { apply wp_bind. apply wp_complete; [discriminate|intro; discriminate|]. intros r. split; reflexivity. }
    destruct (sound t _ _ _ _ _ _ _ R2 W E) as (x & R' & Y1 & Y2).
    exists new. split; [|exact X3]. pose proof (r_lay _ _ _ R') as Ly. rewrite Y1, Y2 in Ly. inversion Ly; subst. assumption.
  Qed.
End Whole.

Lemma proper_count ws : length (proper ws) = count ws.
Proof. reflexivity. Qed.

Lemma parse_before t ws f o a b g errs : token_stream t ws -> ascii_strings t -> tlen t < u32_bound -> ~ comment_in_the_way ws -> ~ glued ws ->
  gen File f -> place o -> proper ws = a ++ b -> Forall2 stands_for (flat_map leaves f ++ opened_leaves o) a ->
  (in_items o -> forall p r, b = p :: r -> fst p <> SEMICOLON) -> N.of_nat (length a) <= 1970 -> parse_text t = Ok (g, errs) ->
  (exists f', strip g = [TNode SOURCE_FILE (f ++ f')] /\ begins o f') /\
  forall e, In e errs -> exists u v, ws = u ++ v /\ se_pos e = tlen (pieces u) /\ (length a <= length (proper u))%nat.
Proof.
  intros St A Hs NC NG G P Pr F O L PT.
  pose proof (stream_steps _ _ St A) as S. pose proof (stream_no_eof _ _ St) as NE.
  destruct (grouping _ NE) as (lead & gs & Ew & T & Gk & Sol & M).
  rewrite Pr in M. apply map_eq_app in M. destruct M as (ga & gb & -> & Ma & Mb).
  unfold parse_text in PT. apply bind_ok in PT as (lx & HL & PT). unfold parse_with_lexer in PT.
  pose proof (grammar_sound t lx (parse_fuel (lx_text lx)) HL) as GS.
  destruct (interp (run (parse_fuel (lx_text lx))) root (parser_new lx)) as [[u s]|w|] eqn:E; cbn [bind] in PT; try discriminate PT.
  destruct GS as (F0 & gs' & Pd). destruct (build_ok _ _ _ _ _ Hs Pd) as (g' & errs' & B & Ok). rewrite B in PT. injection PT as -> ->.
  assert (Off : in_items o -> off [SEMICOLON] (gcur gb)).
  { intros Hi. apply off_of. destruct gb as [|x gb]; cbn [gcur map] in *; [cbn; intuition discriminate|]. subst b. cbn. intros [X|[]]. exact (O Hi _ _ eq_refl (eq_sym X)). }
  assert (Sz : 5 * size ga + 140 <= 10000). { rewrite (size_map fst ga a Ma). lia. }
  pose proof (fits_map _ _ _ F Ma) as FF.
  destruct (lexer_new_inv _ _ HL) as (k & len & I).
  assert (W : exists gl, ungroup gl = ws /\ Forall group_ok gl /\ Forall solid (tl gl) /\ layout gl /\
    exists ld, gl = ld ++ ga ++ gb /\ (ld = [] \/ exists g, ld = [g] /\ is_trivia (fst (fst g)) = true)).
  { destruct lead as [|p lead].
    - cbn [app] in Ew. subst ws. exists (ga ++ gb). split; [reflexivity|]. split; [exact Gk|]. split; [destruct Sol; [constructor|assumption]|].
      split; [apply (group_layout _ []); assumption|]. exists []. auto.
    - inversion T as [|? ? T1 T2]; subst ws. subst.
      assert (Ne : fst p <> EOF). { intros X. unfold trivia_piece in T1. rewrite X in T1. discriminate. }
      exists ((p, lead) :: ga ++ gb). split; [rewrite ungroup_cons; reflexivity|]. split; [constructor; [split; assumption|exact Gk]|]. split; [exact Sol|].
      split; [apply (group_layout _ []); [constructor; [split; assumption|exact Gk]| |]; rewrite ungroup_cons; assumption|].
      exists [(p, lead)]. split; [reflexivity|]. right. exists (p, lead). split; [reflexivity|exact T1]. }
  destruct W as (gl & Ug & Gl & Sl & Ly & ld & El & Ld).
  assert (R0 : rel t (parser_new lx) (Ast k None [] [])).
  { constructor; cbn.
    - constructor. constructor.
    - exact Logic.I.
    - exists [], t, len. cbn. split; [exact I|]. split; [constructor|]. split; [constructor|]. split; [contradiction|constructor].
    - constructor. }
  assert (Kc : k = gcur gl).
  { rewrite <- Ug in S. destruct (steps_head _ _ S) as [m Fn]. rewrite (li_cur _ _ _ _ _ _ I) in Fn. injection Fn as -> _. reflexivity. }
  assert (Bo : both t (parser_new lx) (TS gl None [] [] 0)).
  { split.
    - constructor; cbn [parser_new ps_lexer ps_events ps_steps s_toks s_last s_kids s_stack s_spent]; auto.
      + apply lay_base. constructor.
      + exact Logic.I.
      + exists [], t, len. rewrite <- Kc, Ug. split; [exact I|exact S].
    - unfold ast_of. cbn [s_toks s_last s_kids s_stack]. rewrite <- Kc. exact R0. }
  subst gl. destruct (root_starts t f o ga gb ld G P FF Off Sz Ld _ _ _ _ Bo E) as (x & Rx & Sx & lead' & f' & Kx & Bx & Lx).
  destruct (root_no_error t _ _ _ _ _ R0 E) as (f2 & D2 & N2).
  pose proof (r_lay _ _ _ Rx) as Lay. rewrite Sx, Kx in Lay. inversion Lay as [? ? D| |]; subst.
  pose proof (den_inj _ _ _ D (p_den _ _ _ _ _ Pd)) as X. injection X as X. pose proof (den_inj _ _ _ D D2) as X2. injection X2 as X2. subst f2. clear D2.
  pose proof (place_clean _ P) as Co. pose proof (gen_clean _ _ G) as Cf.
  assert (Sl0 : strip_forest lead' = []).
  { clear - Lx. induction Lx as [|y l (k & -> & K) _ IH]; [reflexivity|]. unfold strip_forest in *. cbn [flat_map strip_tree]. rewrite K, IH. reflexivity. }
  split.
  - exists (strip_forest f'). split; [|apply begins_strip; assumption].
    destruct (ro_root _ _ _ _ _ Ok) as (cs & -> & Sc). cbn [strip]. rewrite Sc, <- X. unfold strip_forest in *. rewrite !flat_map_app, Sl0.
    destruct (clean_forest _ Cf) as [C1 _]. unfold strip_forest in C1. rewrite C1. reflexivity.
  - intros e He. rewrite <- Ug in S, NE |- *. assert (Ws : ungroup gs' = ungroup (ld ++ ga ++ gb)).
    { eapply steps_same; [apply Ok|apply Ok|exact S|exact NE]. }
    pose proof (ro_spots _ _ _ _ _ Ok) as Sp. rewrite <- X, Ws in Sp. specialize (Sp N2).
    rewrite (noted_lead lead' _ 0 Lx), noted_app, (noted_clean _ Cf), (clean_leaves _ Cf) in Sp. cbn [app] in Sp.
    assert (Y : exists mj, In mj (noted (0 + length (flat_map leaves f)) f') /\ spot (ungroup (ld ++ ga ++ gb)) e mj).
    { clear - Sp He. induction Sp as [|e' mj es ms Se _ IH]; [destruct He|]. destruct He as [<-|He]; [exists mj; cbn; auto|].
      destruct (IH He) as (z & Z1 & Z2). exists z. cbn; auto. }
    destruct Y as ([m j] & Ij & _ & u1 & v1 & E1 & E2 & E3 & _). apply (begins_noted _ _ Bx Co) in Ij. cbn [snd] in E3.
    exists u1, v1. split; [exact E1|]. split; [exact E2|]. rewrite proper_count, E3.
    apply Forall2_len in F. rewrite app_length in F. lia.
Qed.
