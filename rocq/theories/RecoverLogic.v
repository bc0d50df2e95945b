(** A program logic for all runs of the grammar functions that end.

    As LenientLogic.v, but reporting an error leaves its mark in the tree. *)
From Coq Require Import String.
From Verif Require Import Base BaseProofs Kinds KindsProofs Lexer LexerRuns LexerProofs LexerStateProofs
  Parser Grammar TreeSpec SyntaxSpec LenientSpec GapSpec RecoverSpec ParserLogic GrammarProofs LenientLogic.
Local Open Scope N_scope.

Definition astep {B} (c : cmd B) (st : lst) : (B -> lst -> Prop) -> Prop :=
  match c in cmd B return (B -> lst -> Prop) -> Prop with
  | CNth O => fun K => K (l_cur st) st
  | CNth (S O) => fun K => forall k, K k (L (l_cur st) (Some k) (l_last st) (l_kids st) (l_stack st))
  | CNth _ => fun K => forall k, K k st
  | CCurrent => fun K => K (l_cur st) st
  | CCurrentText => fun K => forall x, K x st
  | CStart => fun K => forall m, K m (L (l_cur st) (l_next st) None [] (Open m None (l_kids st) :: l_stack st))
  | CDoBump k => fun K => remap (l_cur st) k /\ l_cur st <> EOF /\
      forall cur', is_trivia cur' = false ->
        (forall k', l_next st = Some k' -> is_trivia k' = false -> cur' = k') ->
        K tt (L cur' None None (l_kids st ++ [TTok k]) (l_stack st))
  | CError msg => fun K => K tt (L (l_cur st) (l_next st) None (l_kids st ++ [TErr msg]) (l_stack st))
  | CComplete m k => fun K => match l_stack st with
      | o :: stk => o_pos o = m /\ k <> TOMBSTONE /\ node_ok k (opt_tree (o_first o) ++ l_kids st) /\
          forall c, K c (L (l_cur st) (l_next st) (Some c)
                         (o_before o ++ [TNode k (opt_tree (o_first o) ++ l_kids st)]) stk)
      | [] => False
      end
  | CAbandon m => fun K => match l_stack st with
      | o :: stk => o_pos o = m /\ o_first o = None /\
          K tt (L (l_cur st) (l_next st) None (o_before o ++ l_kids st) stk)
      | [] => False
      end
  | CPrecede c => fun K => l_last st = Some c /\ exists f0 t, l_kids st = f0 ++ [t] /\
      forall m, K m (L (l_cur st) (l_next st) None [] (Open m (Some t) f0 :: l_stack st))
  | CAssert b => fun K => b = true -> K tt st
  end.

(** ** Contracts: the tree made has the form of RecoverSpec.v *)
(** where tokens skipped for an expression end *)
Definition stops : list kind := [SEMICOLON; R_PAREN; EOF].
Definition ends_at (t : tree) (c : kind) : Prop := forall js, t = skipped m_expr js -> In c stops.
Definition operand (t : tree) (c : kind) : Prop :=
  (made RPostfix [t] /\ forall js, t <> skipped m_expr js) \/ (made RUnary [t] /\ In c stops).

Definition apre (f : fn) (st : lst) : Prop :=
  match f with
  | F_skip_until ts => In EOF ts
  | F_path_for_qualifier q => exists f0 t, llast st q f0 t /\ made RPath [t]
  | F_postfix q => exists f0 t, llast st q f0 t /\ operand t (l_cur st)
  | F_expr_bp bp => 1 <= bp
  | F_expr_bp_loop bp q => 1 <= bp /\ exists f0 t, llast st q f0 t /\ made (RExpr bp) [t] /\
      (forall p, prec (l_cur st) = Some p -> made (RExpr p) [t]) /\ ends_at t (l_cur st)
  | F_tuple_pat has_comma has_pat has_rest => has_rest = false /\ (has_comma = true -> has_pat = true)
  | _ => True
  end.

(** The functions that would never end from some tokens are not called at them. *)
Definition apost (f : fn) (st : lst) : fn_ret f -> lst -> Prop :=
  match f return fn_ret f -> lst -> Prop with
  | F_skip_until ts => fun _ => lgrows (fun c new => exists js, new = map TTok js /\ Forall (fun k => ~ In k ts) js /\ In c ts /\
      match js with [] => c = l_cur st | k :: _ => k = l_cur st end) st
  | F_root => fun _ => lgrows (fun _ new => made RFile (filter not_blank new) /\
      (In (l_cur st) [EOF; MODULE_KW; SCRIPT_KW; ADDRESS_KW] \/ is_trivia (l_cur st) = true)) st
  | F_address_items => fun _ => lgrows (fun _ => made RModules) st
  | F_items => fun _ => lgrows (fun _ new => made RItems new /\ In (l_cur st) [R_BRACE; EOF; FUN_KW; STRUCT_KW; SEMICOLON]) st
  | F_record_fields => fun _ => lgrows (till R_BRACE st (fun _ new => made RFields new /\ l_cur st <> L_BRACE)) st
  | F_generic_params => fun _ => lgrows (till GT st (fun _ => made RTypeParams)) st
  | F_bounds => fun _ => lgrows (fun _ => made RBounds) st
  | F_params => fun _ => lgrows (till R_PAREN st (fun _ => made RParams)) st
  | F_type => fun _ => lgrows (fun _ new => exists ty, new = [ty] /\ made RType [ty]) st
  | F_block_contents => fun _ => lgrows (fun _ new => made RStmts new /\ l_cur st <> R_PAREN /\ (l_cur st = EOF -> new = [])) st
  | F_expr_block_contents => fun _ => lgrows (fun _ new => made RJunkStmts new /\ l_cur st <> R_PAREN /\ (l_cur st = EOF -> new = [])) st
  | F_args => fun _ => lgrows (till R_PAREN st (fun _ => made RArgs)) st
  | F_paren => fun b => lgrows (fun _ new => b = true /\ made RParens new /\ l_cur st <> SEMICOLON /\
      (l_cur st = EOF \/ l_cur st = R_PAREN -> new = [])) st
  | F_record_expr_fields => fun _ => lgrows (till R_BRACE st (fun _ => made RFieldInits)) st
  | F_pattern => fun _ => lgrows (fun _ new => exists p, new = [p] /\ made RPattern [p]) st
  | F_tuple_pat has_comma has_pat _ => fun flags => lgrows (fun c new => till R_PAREN st (fun _ => made RPatterns) c new /\
      flags = (has_comma || negb (Nat.leb (length new) 1), has_pat || negb (Nat.eqb (length new) 0), false)) st
  | F_record_pat_fields => fun _ => lgrows (till R_BRACE st (fun _ => made RFieldPats)) st
  | F_path_for_qualifier q => fun _ st' => l_stack st' = l_stack st /\
      exists f0 t t', l_kids st = f0 ++ [t] /\ l_kids st' = f0 ++ [t'] /\ made RPath [t'] /\
        (l_cur st <> COLON_COLON -> t' = t /\ l_cur st' = l_cur st)
  | F_postfix q => fun c st' => l_stack st' = l_stack st /\
      exists f0 t t', l_kids st = f0 ++ [t] /\ llast st' c f0 t' /\ made RUnary [t'] /\ ends_at t' (l_cur st') /\
        (In (l_cur st) stops -> l_cur st' = l_cur st)
  | F_expr_bp bp => fun o st' => l_stack st' = l_stack st /\
      exists c t', o = Some c /\ llast st' c (l_kids st) t' /\ made (RExpr bp) [t'] /\ ends_at t' (l_cur st') /\
        (forall p, prec (l_cur st') = Some p -> p < bp) /\ (In (l_cur st) stops -> l_cur st' = l_cur st)
  | F_expr_bp_loop bp q => fun o st' => l_stack st' = l_stack st /\
      exists f0 t c t', l_kids st = f0 ++ [t] /\ o = Some c /\ llast st' c f0 t' /\ made (RExpr bp) [t'] /\ ends_at t' (l_cur st') /\
        (forall p, prec (l_cur st') = Some p -> p < bp) /\ (In (l_cur st) stops -> l_cur st' = l_cur st)
  end.

Fixpoint awp {A} (p : prog A) (Q : A -> lst -> Prop) (st : lst) : Prop :=
  match p with
  | Ret a => Q a st
  | Do c k => astep c st (fun b st' => awp (k b) Q st')
  | Call f k => apre f st /\ forall b st', apost f st b st' -> awp (k b) Q st'
  end.

Lemma astep_mono {B} (c : cmd B) st (K K' : B -> lst -> Prop) :
  (forall b st', K b st' -> K' b st') -> astep c st K -> astep c st K'.
Proof.
  intros H. destruct c as [[|[|n]]| | | | | | | | |]; cbn [astep]; auto.
  - intros (H1 & H2 & H3). auto 7.
  - destruct (l_stack st); [auto|]. intros (H1 & H2 & H3 & H4). auto 6.
  - destruct (l_stack st); [auto|]. intros (H1 & H2 & H3). auto 6.
  - intros (H1 & f0 & t & H2 & H3). split; [auto|]. exists f0, t. auto.
Qed.
Lemma awp_bind {A B} (p : prog A) (q : A -> prog B) Q st :
  awp p (fun a st' => awp (q a) Q st') st -> awp (pbind p q) Q st.
Proof.
  revert st. induction p as [a|C c k IH|f k IH]; intros st; cbn [awp pbind]; auto.
  - apply astep_mono. auto.
  - intros [H1 H2]. split; auto.
Qed.

(** ** Soundness *)
Definition aoutcome (t : text) {A} (Q : A -> lst -> Prop) (r : res (A * pstate)) : Prop :=
  match r with
  | Ok (a, s') => exists st', lrel false t s' st' /\ Q a st'
  | _ => True
  end.

Lemma aexec_sound t {B} (c : cmd B) s st (K : B -> lst -> Prop) :
  lrel false t s st -> astep c st K -> aoutcome t K (exec c s).
Proof.
  intros [R N U] HK. destruct (exec c s) as [[b s']|w|] eqn:E; [|exact I..]. cbn [aoutcome].
  (* the abstract state after the command, but for the token ahead *)
  assert (X : forall P : B -> ast -> Prop, step c (to_ast st) P -> exists a, rel t s' a /\ P b a).
  { intros P HP. pose proof (exec_sound t c s (to_ast st) P R HP) as O. rewrite E in O. exact O. }
  assert (SameLexer : ps_lexer s' = ps_lexer s -> forall a l Ks S, rel t s' (Ast a l Ks S) ->
    lrel false t s' (L a (l_next st) l Ks S)).
  { intros El a l Ks S Ra. constructor; [exact Ra| |exact U]. cbn [l_next]. rewrite El. exact N. }
  destruct c as [[|[|n]]| | | |k|msg|m k|m|c|b0]; cbn [astep] in HK.
  - destruct (X (fun x a => a = to_ast st /\ x = l_cur st)) as (a & Ra & -> & ->); [cbn; auto|]. exists st. split; [|exact HK].
    cbn [exec] in E. unfold exec_nth in E. apply bind_ok in E as (? & _ & E). apply bind_ok in E as (? & _ & E).
    apply bind_ok in E as (? & _ & E). injection E as _ <-. constructor; auto.
  - destruct (X (fun x a => a = to_ast st)) as (a & Ra & ->); [cbn; auto|]. eexists. split; [|apply HK].
    cbn [exec] in E. unfold exec_nth in E. apply bind_ok in E as (? & _ & E). apply bind_ok in E as (? & _ & E).
    apply bind_ok in E as (tok & Et & E). injection E as E0 <-. constructor; [exact Ra| |exact U]. cbn [l_next ps_lexer].
    intros k Ek. injection Ek as <-. eauto.
  - destruct (X (fun x a => a = to_ast st)) as (a & Ra & ->); [cbn; auto|]. exists st. split; [|apply HK].
    cbn [exec] in E. unfold exec_nth in E. apply bind_ok in E as (? & _ & E). apply bind_ok in E as (? & _ & E).
    apply bind_ok in E as (tok & Et & E). injection E as E0 <-. constructor; auto.
  - destruct (X (fun x a => a = to_ast st /\ x = l_cur st)) as (a & Ra & -> & ->); [cbn; auto|]. exists st. split; [|exact HK].
    cbn [exec] in E. injection E as _ <-. constructor; auto.
  - destruct (X (fun x a => a = to_ast st)) as (a & Ra & ->); [cbn; auto|]. exists st. split; [|apply HK].
    cbn [exec] in E. apply bind_ok in E as (? & _ & E). injection E as _ <-. constructor; auto.
  - destruct (X (fun m a => a = Ast (l_cur st) None [] (Open m None (l_kids st) :: l_stack st))) as (a & Ra & ->); [cbn; auto|].
    eexists. split; [|apply HK]. apply SameLexer; [|exact Ra]. cbn [exec] in E. injection E as _ <-. reflexivity.
  - destruct HK as (H1 & H2 & HK).
    destruct (X (fun _ a => exists cur', is_trivia cur' = false /\ a = Ast cur' None (l_kids st ++ [TTok k]) (l_stack st)))
      as (a & Ra & cur' & Hc & ->); [cbn; eauto 8|].
    exists (L cur' None None (l_kids st ++ [TTok k]) (l_stack st)). split; [constructor; [exact Ra|discriminate|exact U]|].
    cbn [exec] in E. apply bind_ok in E as (s1 & E1 & E). injection E as <- <-. unfold exec_do_bump in E1.
    apply bind_ok in E1 as (lx' & B1 & E1). injection E1 as <-.
    pose proof (cur_kind _ _ _ _ (r_lex _ _ _ Ra)) as C. cbn [a_cur ps_lexer] in C.
    destruct R as [_ _ RX _]. destruct RX as (gs & rest & len & I & _). cbn [to_ast a_cur] in I.
    apply HK; [exact Hc|].
    intros k' En Ht. destruct (N _ En) as (tok & El & Ek).
    rewrite <- C, <- Ek. eapply ahead_bump; eauto. congruence.
  - destruct (X (fun _ a => a = Ast (l_cur st) None (l_kids st ++ [TErr msg]) (l_stack st))) as (a & Ra & ->); [cbn; auto|].
    destruct b. eexists. split; [|apply HK]. apply SameLexer; [|exact Ra]. cbn [exec] in E. injection E as <-. reflexivity.
  - destruct (l_stack st) as [|o stk] eqn:Es; [destruct HK|]. destruct HK as (H1 & H2 & H3 & HK).
    destruct (X (fun c a => a = Ast (l_cur st) (Some c) (o_before o ++ [TNode k (opt_tree (o_first o) ++ l_kids st)]) stk))
      as (a & Ra & ->); [cbn; rewrite Es; auto 6|].
    eexists. split; [|apply HK]. apply SameLexer; [|exact Ra].
    cbn [exec] in E. unfold exec_complete in E. destruct (nth_error (ps_events s) m) as [[k0 fp| | |]|]; try discriminate.
    injection E as _ <-. reflexivity.
  - destruct (l_stack st) as [|o stk] eqn:Es; [destruct HK|]. destruct HK as (H1 & H2 & HK).
    destruct (X (fun c a => a = Ast (l_cur st) None (o_before o ++ l_kids st) stk))
      as (a & Ra & ->); [cbn; rewrite Es; auto 6|].
    destruct b. eexists. split; [|apply HK]. apply SameLexer; [|exact Ra].
    cbn [exec] in E. apply bind_ok in E as (s1 & E1 & E). injection E as <-. unfold exec_abandon in E1.
    destruct (Nat.eqb (S m) (length (ps_events s))); [|injection E1 as <-; reflexivity].
    destruct (nth_error (ps_events s) m) as [[k0 fp| | |]|]; try discriminate.
    destruct k0; try discriminate. destruct fp; try discriminate. injection E1 as <-. reflexivity.
  - destruct HK as (H1 & f0 & x & H2 & HK).
    destruct (X (fun m a => a = Ast (l_cur st) None [] (Open m (Some x) f0 :: l_stack st)))
      as (a & Ra & ->); [cbn; split; [exact H1|]; exists f0, x; auto|].
    eexists. split; [|apply HK]. apply SameLexer; [|exact Ra].
    cbn [exec] in E. unfold exec_precede in E. cbn [exec_start] in E.
    destruct (nth_error (ps_events (push_event s tombstone)) (cm_start c)) as [[k0 fp| | |]|]; try discriminate.
    apply bind_ok in E as (? & _ & E). injection E as _ <-. reflexivity.
  - destruct (X (fun _ a => a = to_ast st /\ b0 = true)) as (a & Ra & -> & Hb); [cbn; auto|].
    destruct b. exists st. split; [|auto].
    cbn [exec] in E. apply bind_ok in E as (? & _ & E). injection E as <-. constructor; auto.
Qed.


Lemma ainterp_sound t fuel :
  (forall f s st, lrel false t s st -> apre f st -> aoutcome t (apost f st) (run fuel f s)) ->
  forall A (p : prog A) s st Q, lrel false t s st -> awp p Q st -> aoutcome t Q (interp (run fuel) p s).
Proof.
  intros HR A p. induction p as [a|B c k IH|f k IH]; intros s st Q R W; cbn [interp awp] in *.
  - cbn [aoutcome]. eauto.
  - pose proof (aexec_sound t c s st _ R W) as E. destruct (exec c s) as [[b s']|w|]; cbn [bind aoutcome] in *; auto.
    destruct E as (st' & R' & W'). exact (IH b s' st' Q R' W').
  - destruct W as [Hp W]. pose proof (HR f s st R Hp) as E.
    destruct (run fuel f s) as [[b s']|w|]; cbn [bind aoutcome] in *; auto.
    destruct E as (st' & R' & W'). exact (IH b s' st' Q R' (W _ _ W')).
Qed.

Lemma arun_sound t : (forall f st, apre f st -> awp (body f) (apost f st) st) ->
  forall fuel f s st, lrel false t s st -> apre f st -> aoutcome t (apost f st) (run fuel f s).
Proof.
  intros HB fuel. induction fuel as [|fuel IH]; intros f s st R P; cbn [run]; [exact I|].
  apply (ainterp_sound t fuel IH _ _ _ _ _ R). apply HB. exact P.
Qed.
