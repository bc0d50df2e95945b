(** A program logic for runs of the grammar functions that report no error.

    As ParserLogic.v, but reporting an error ends the obligations, and the
    abstract state remembers the last token looked ahead. *)
From Coq Require Import String.
From Verif Require Import Base BaseProofs Kinds KindsProofs Lexer LexerRuns LexerProofs LexerStateProofs
  Parser Grammar TreeSpec SyntaxSpec LenientSpec ParserLogic GrammarProofs.
Local Open Scope N_scope.

(** ** Errors stay *)
Definition is_err (e : event) : Prop := match e with EError _ => True | _ => False end.
Definition has_err (evs : list event) : Prop := Exists is_err evs.

Lemma has_err_app a b : has_err (a ++ b) <-> has_err a \/ has_err b.
Proof. apply Exists_app. Qed.
Lemma has_err_set evs m e k fp : nth_error evs m = Some (EStart k fp) -> has_err evs -> has_err (set_nth evs m e).
Proof.
  revert m; induction evs as [|x evs IH]; intros [|m] E H; cbn [nth_error set_nth] in *; try discriminate.
  - injection E as ->. inversion H as [? ? Z|? ? Z]; subst; [destruct Z|]. right. exact Z.
  - inversion H; subst; [left; assumption|]. right. apply IH; auto.
Qed.

Lemma exec_errs {B} (c : cmd B) s b s' : exec c s = Ok (b, s') -> has_err (ps_events s) -> has_err (ps_events s').
Proof.
  intros E H. destruct c; cbn [exec] in E.
  - unfold exec_nth in E. apply bind_ok in E as (? & _ & E). apply bind_ok in E as (? & _ & E).
    apply bind_ok in E as (? & _ & E). injection E as _ <-. exact H.
  - injection E as _ <-. exact H.
  - apply bind_ok in E as (? & _ & E). injection E as _ <-. exact H.
  - injection E as _ <-. cbn. apply has_err_app. auto.
  - apply bind_ok in E as (s1 & E1 & E). injection E as _ <-. unfold exec_do_bump in E1.
    apply bind_ok in E1 as (? & _ & E1). injection E1 as <-. cbn. apply has_err_app. auto.
  - injection E as _ <-. cbn. apply has_err_app. auto.
  - unfold exec_complete in E. destruct (nth_error (ps_events s) m) as [[k0 fp| | |]|] eqn:N; try discriminate.
    injection E as _ <-. cbn. apply has_err_app. left. eapply has_err_set; eauto.
  - apply bind_ok in E as (s1 & E1 & E). injection E as _ <-. unfold exec_abandon in E1.
    destruct (Nat.eqb (S m) (length (ps_events s))) eqn:L; [|injection E1 as <-; exact H].
    destruct (nth_error (ps_events s) m) as [[k0 fp| | |]|] eqn:N; try discriminate.
    destruct k0; try discriminate. destruct fp; try discriminate. injection E1 as <-. cbn.
    apply Nat.eqb_eq in L. destruct (ps_events s) as [|x0 r0] eqn:Ev using rev_ind; [inversion H|].
    rewrite removelast_last. rewrite app_length in L. cbn [length] in L.
    rewrite nth_error_app2 in N by lia. replace (m - length r0)%nat with 0%nat in N by lia. cbn in N. injection N as ->.
    apply has_err_app in H as [H|H]; [exact H|]. inversion H as [? ? Z|? ? Z]; subst; [destruct Z|inversion Z].
  - unfold exec_precede in E. cbn [exec_start] in E.
    destruct (nth_error (ps_events (push_event s tombstone)) (cm_start c)) as [[k0 fp| | |]|] eqn:N; try discriminate.
    apply bind_ok in E as (? & _ & E). injection E as _ <-. cbn. eapply has_err_set; [exact N|].
    cbn. apply has_err_app. auto.
  - apply bind_ok in E as (? & _ & E). injection E as _ <-. exact H.
Qed.

Lemma interp_errs rec : (forall f s b s', rec f s = Ok (b, s') -> has_err (ps_events s) -> has_err (ps_events s')) ->
  forall A (p : prog A) s b s', interp rec p s = Ok (b, s') -> has_err (ps_events s) -> has_err (ps_events s').
Proof.
  intros HR A p. induction p as [a|B c k IH|f k IH]; intros s b s' E H; cbn [interp] in E.
  - injection E as _ <-. exact H.
  - apply bind_ok in E as ([x s1] & E1 & E). eapply IH; [exact E|]. eapply exec_errs; eauto.
  - apply bind_ok in E as ([x s1] & E1 & E). eapply IH; [exact E|]. eapply HR; eauto.
Qed.
Lemma run_errs fuel : forall f s b s', run fuel f s = Ok (b, s') -> has_err (ps_events s) -> has_err (ps_events s').
Proof.
  induction fuel as [|fuel IH]; intros f s b s' E; [discriminate|]. cbn [run] in E.
  exact (interp_errs (run fuel) IH _ _ _ _ _ E).
Qed.

Section Logic.
(** no comment hides the token after a name (see LenientSpec.v) *)
Variable plain : bool.
Local Notation lenient := (@accepts plain).
Definition uncommented (t : text) : Prop := forall a p b w c rest n, steps t (a ++ p :: b ++ (COMMENT, w) :: c) rest ->
  fst p = IDENT -> Forall trivia_piece b -> Forall trivia_piece c -> find_token rest <> Ok (L_BRACE, n).

(** ** Abstract states *)
Record lst := L { l_cur : kind; l_next : option kind; l_last : option cmark; l_kids : forest; l_stack : list open_ }.
Definition to_ast (st : lst) : ast := Ast (l_cur st) (l_last st) (l_kids st) (l_stack st).

Record lrel (t : text) (s : pstate) (st : lst) : Prop := {
  lr_rel : rel t s (to_ast st);
  lr_next : forall k, l_next st = Some k ->
    exists tok, lx_lookahead_nth (ps_lexer s) 1 = Ok tok /\ t_kind tok = k;
  lr_plain : plain = true -> uncommented t
}.

(** A token looked ahead that is not trivia is the next one. *)
Lemma trim_ahead b tr rest : steps b tr rest -> Forall trivia_piece tr ->
  forall k n k' n', find_token rest = Ok (k', n') -> is_trivia k' = false ->
  find_token (trim_start b) = Ok (k, n) -> is_trivia k = false -> k = k'.
Proof.
  induction 1 as [t|k0 w t ws rest F S IH]; intros Ft k n k' n' Fr Hk' Fk Hk.
  - rewrite (trim_start_stop _ _ _ Fr) in Fk by (intros ->; discriminate). congruence.
  - inversion Ft as [|? ? Ft1 Ft2]; subst. unfold trivia_piece in Ft1. cbn [fst] in Ft1.
    destruct (kind_eqb k0 WHITESPACE) eqn:E.
    + apply kind_eqb_eq in E. subst k0. rewrite trim_start_blank in Fk by (eapply whitespace_piece; eauto). eapply IH; eauto.
    + apply kind_eqb_neq in E. rewrite (trim_start_stop _ _ _ F E) in Fk. congruence.
Qed.
Lemma ahead_bump t lx ws rest k len lx' tok : lx_inv t lx ws rest k len -> lx_bump lx = Ok lx' ->
  lx_lookahead_nth lx 1 = Ok tok -> is_trivia (t_kind tok) = false -> t_kind (lx_current lx') = t_kind tok.
Proof.
  intros I B A Ht. cbn [lx_lookahead_nth] in A. unfold lx_lookahead in A.
  apply bind_ok in A as (b & Sl & A). apply bind_ok in A as ([k1 n1] & F & A). injection A as <-.
  destruct (bump_inv _ _ _ _ _ _ _ I B) as (w & tr & rest' & k' & len' & L & Ft & S & Hk & I').
  inversion S as [|? ? b' ? ? F1 S']; subst.
  rewrite (inv_slice_ok _ _ _ _ _ _ I) in Sl. injection Sl as <-.
  unfold lx_current. rewrite (li_tok _ _ _ _ _ _ I'). cbn [token_new t_kind] in *.
  symmetry. eapply (trim_ahead _ _ _ S' Ft); eauto. exact (li_cur _ _ _ _ _ _ I').
Qed.

Lemma trim_blanks b tr rest : steps b tr rest -> Forall (fun p => fst p = WHITESPACE) tr ->
  forall k n k' n', find_token rest = Ok (k', n') -> is_trivia k' = false -> find_token (trim_start b) = Ok (k, n) -> k = k'.
Proof.
  induction 1 as [t|k0 w t ws rest F S IH]; intros Ft k n k' n' Fr Hk' Fk.
  - rewrite (trim_start_stop _ _ _ Fr) in Fk by (intros ->; discriminate). congruence.
  - inversion Ft as [|? ? Ft1 Ft2]; subst. cbn [fst] in Ft1. subst k0.
    rewrite trim_start_blank in Fk by (eapply whitespace_piece; eauto). eapply IH; eauto.
Qed.
Lemma blanks_or_comment tr : Forall trivia_piece tr -> Forall (fun p => fst p = WHITESPACE) tr \/
  exists b w c, tr = b ++ (COMMENT, w) :: c /\ Forall trivia_piece b /\ Forall trivia_piece c.
Proof.
  induction 1 as [|[k w] tr H T IH]; [left; constructor|]. unfold trivia_piece in H. cbn [fst] in H.
  destruct k; try discriminate H.
  - destruct IH as [IH|(b & w' & c & -> & F1 & F2)]; [left; constructor; auto|right].
    exists ((WHITESPACE, w) :: b), w', c. split; [reflexivity|]. split; [constructor; [reflexivity|exact F1]|exact F2].
  - right. exists [], w, tr. split; [reflexivity|]. split; [constructor|exact T].
Qed.
Lemma ahead_plain t lx ws rest len lx' tok : lx_inv t lx ws rest IDENT len -> lx_bump lx = Ok lx' ->
  lx_lookahead_nth lx 1 = Ok tok -> uncommented t -> t_kind (lx_current lx') = L_BRACE -> t_kind tok = L_BRACE.
Proof.
  intros I B A U Ec. cbn [lx_lookahead_nth] in A. unfold lx_lookahead in A.
  apply bind_ok in A as (b & Sl & A). apply bind_ok in A as ([k1 n1] & F & A). injection A as <-.
  destruct (bump_inv _ _ _ _ _ _ _ I B) as (w & tr & rest' & k' & len' & L & Ft & S & Hk & I').
  inversion S as [|? ? b' ? ? F1 S']; subst.
  rewrite (inv_slice_ok _ _ _ _ _ _ I) in Sl. injection Sl as <-.
  unfold lx_current in Ec. rewrite (li_tok _ _ _ _ _ _ I') in Ec. cbn [token_new t_kind] in *. subst k'.
  destruct (blanks_or_comment _ Ft) as [Fb|(x & w' & y & -> & F2 & F3)].
  - eapply (trim_blanks _ _ _ S' Fb); eauto. exact (li_cur _ _ _ _ _ _ I').
  - destruct (U ws (IDENT, w) x w' y rest' len' (li_steps _ _ _ _ _ _ I') eq_refl F2 F3 (li_cur _ _ _ _ _ _ I')).
Qed.

Definition lstep {B} (c : cmd B) (st : lst) : (B -> lst -> Prop) -> Prop :=
  match c in cmd B return (B -> lst -> Prop) -> Prop with
  | CNth O => fun K => K (l_cur st) st
  | CNth (S O) => fun K => forall k, K k (L (l_cur st) (Some k) (l_last st) (l_kids st) (l_stack st))
  | CNth _ => fun K => forall k, K k st
  | CCurrent => fun K => K (l_cur st) st
  | CCurrentText => fun K => forall x, K x st
  | CStart => fun K => forall m, K m (L (l_cur st) (l_next st) None [] (Open m None (l_kids st) :: l_stack st))
  | CDoBump k => fun K => remap (l_cur st) k /\ l_cur st <> EOF /\
      forall cur', is_trivia cur' = false ->
        (forall k', l_next st = Some k' -> is_trivia k' = false -> cur' = k') ->
        (plain = true -> l_cur st = IDENT -> cur' = L_BRACE -> forall k', l_next st = Some k' -> k' = L_BRACE) ->
        K tt (L cur' None None (l_kids st ++ [TTok k]) (l_stack st))
  | CError msg => fun K => True
  | CComplete m k => fun K => match l_stack st with
      | o :: stk => o_pos o = m /\ k <> TOMBSTONE /\ node_ok k (opt_tree (o_first o) ++ l_kids st) /\
          forall c, K c (L (l_cur st) (l_next st) (Some c)
                         (o_before o ++ [TNode k (opt_tree (o_first o) ++ l_kids st)]) stk)
      | [] => False
      end
  | CAbandon m => fun K => match l_stack st with
      | o :: stk => o_pos o = m /\ o_first o = None /\
          K tt (L (l_cur st) (l_next st) None (o_before o ++ l_kids st) stk)
      | [] => False
      end
  | CPrecede c => fun K => l_last st = Some c /\ exists f0 t, l_kids st = f0 ++ [t] /\
      forall m, K m (L (l_cur st) (l_next st) None [] (Open m (Some t) f0 :: l_stack st))
  | CAssert b => fun K => b = true -> K tt st
  end.

(** ** Contracts: the tree made has the form of LenientSpec.v, or the file has ended *)
Definition lgrows (P : kind -> forest -> Prop) (st st' : lst) : Prop :=
  l_stack st' = l_stack st /\ exists new, l_kids st' = l_kids st ++ new /\ P (l_cur st') new.
Definition ends (x : nt) (c : kind) (new : forest) : Prop := c = EOF \/ lenient x new.
Definition llast (st : lst) (c : cmark) (f0 : forest) (t : tree) : Prop :=
  l_last st = Some c /\ l_kids st = f0 ++ [t].
(** the root also holds the blanks before the first token *)
Definition not_blank (t : tree) : bool := match t with TTok k => negb (is_trivia k) | _ => true end.
Definition starts (k : kind) (t : tree) : Prop := exists r, leaves t = k :: r.

(** a list of phrases, empty when the current token is already the closing one *)
Definition till (k : kind) (st : lst) (P : kind -> forest -> Prop) (c : kind) (new : forest) : Prop :=
  P c new /\ (l_cur st = k -> new = [] /\ c = k).

(** the expression [e] takes no token of kind [c], but for operators *)
Definition quiet (e : tree) (c : kind) : Prop := ~ In c [L_PAREN; DOT] /\ (last_path e = true -> c <> L_BRACE).
(** the phrases begin with a token of kind [k], if they have any *)
Definition begun (k : kind) (f : forest) : Prop := forall k' r, flat_map leaves f = k' :: r -> k' = k.

Definition lpre (f : fn) (st : lst) : Prop :=
  match f with
  | F_skip_until _ | F_expr_block_contents => False
  | F_path_for_qualifier q => exists f0 t, llast st q f0 t /\ lenient Path_ [t]
  | F_postfix q => exists f0 t, llast st q f0 t /\ (l_cur st = EOF \/ lenient Postfix [t]) /\ nonbin t /\
      (last_path t = true -> l_cur st <> L_BRACE)
  | F_expr_bp bp => 1 <= bp
  | F_expr_bp_loop bp q => 1 <= bp /\ exists f0 t, llast st q f0 t /\
      (l_cur st = EOF \/ lenient (Expr bp) [t]) /\ binds bp t /\
      (forall p, prec (l_cur st) = Some p -> lenient (Expr p) [t] /\ binds p t) /\ quiet t (l_cur st)
  | F_tuple_pat has_comma has_pat has_rest => has_rest = false /\ (has_comma = true -> has_pat = true)
  | _ => True
  end.

Definition lpost (f : fn) (st : lst) : fn_ret f -> lst -> Prop :=
  match f return fn_ret f -> lst -> Prop with
  | F_skip_until _ | F_expr_block_contents => fun _ _ => True
  | F_root => fun _ => lgrows (fun _ new => lenient File (filter not_blank new)) st
  | F_address_items => fun _ => lgrows (fun _ => lenient Modules) st
  | F_items => fun _ => lgrows (fun _ => lenient Items) st
  | F_record_fields => fun _ => lgrows (till R_BRACE st (fun _ => lenient (Commas Field))) st
  | F_generic_params => fun _ => lgrows (till GT st (fun _ => lenient (Commas TypeParam))) st
  | F_bounds => fun _ => lgrows (fun _ => lenient Bounds) st
  | F_params => fun _ => lgrows (till R_PAREN st (fun _ => lenient (Commas Param))) st
  | F_type => fun _ => lgrows (fun _ new => exists ty, new = [ty] /\ lenient Type_ [ty]) st
  | F_block_contents => fun _ => lgrows (fun c new => (c = EOF \/ lenient Stmts new /\ begun (l_cur st) new) /\ (l_cur st = EOF -> c = EOF)) st
  | F_args => fun _ st' => lgrows (till R_PAREN st (ends (Commas (Expr 1)))) st st' /\ (l_cur st' = EOF \/ l_cur st' = R_PAREN)
  | F_paren => fun b st' => b = true /\ lgrows (fun c new => (c = EOF \/ Forall (fun e => lenient (Expr 1) [e]) new /\ separate new /\ begun (l_cur st) new) /\ (l_cur st = EOF -> c = EOF)) st st'
  | F_record_expr_fields => fun _ => lgrows (till R_BRACE st (ends (Commas FieldInit))) st
  | F_pattern => fun _ => lgrows (fun c new => exists p, new = [p] /\ lenient Pattern_ [p] /\
      (plain = true -> p = TNode IDENT_PAT [name_node] -> c <> L_BRACE)) st
  | F_tuple_pat has_comma has_pat _ => fun flags st' => exists hc hp, flags = (hc, hp, false) /\
      lgrows (fun c new => till R_PAREN st (fun _ => lenient (Commas Pattern_)) c new /\
        hp = (has_pat || negb (Nat.eqb (length new) 0)) /\
        hc = (has_comma || negb (Nat.leb (length new) 1))) st st'
  | F_record_pat_fields => fun _ => lgrows (till R_BRACE st (fun _ => lenient (Commas FieldPat))) st
  | F_path_for_qualifier q => fun _ st' => l_stack st' = l_stack st /\
      exists f0 t t', l_kids st = f0 ++ [t] /\ l_kids st' = f0 ++ [t'] /\ lenient Path_ [t'] /\
        (forall k, starts k t -> starts k t') /\ (l_cur st <> COLON_COLON -> t' = t /\ l_cur st' = l_cur st)
  | F_postfix q => fun c st' => l_stack st' = l_stack st /\
      exists f0 t t', l_kids st = f0 ++ [t] /\ llast st' c f0 t' /\
        (l_cur st' = EOF \/ lenient Postfix [t']) /\ nonbin t' /\ (forall k, starts k t -> starts k t') /\ quiet t' (l_cur st')
  | F_expr_bp bp => fun o st' => l_stack st' = l_stack st /\
      exists c t', o = Some c /\ llast st' c (l_kids st) t' /\
        (l_cur st' = EOF \/ lenient (Expr bp) [t']) /\ binds bp t' /\ starts (l_cur st) t' /\
        (forall p, prec (l_cur st') = Some p -> p < bp) /\ quiet t' (l_cur st')
  | F_expr_bp_loop bp q => fun o st' => l_stack st' = l_stack st /\
      exists f0 t c t', l_kids st = f0 ++ [t] /\ o = Some c /\ llast st' c f0 t' /\
        (l_cur st' = EOF \/ lenient (Expr bp) [t']) /\ binds bp t' /\ (forall k, starts k t -> starts k t') /\
        (forall p, prec (l_cur st') = Some p -> p < bp) /\ quiet t' (l_cur st')
  end.

Fixpoint lwp {A} (p : prog A) (Q : A -> lst -> Prop) (st : lst) : Prop :=
  match p with
  | Ret a => Q a st
  | Do c k => lstep c st (fun b st' => lwp (k b) Q st')
  | Call f k => lpre f st /\ forall b st', lpost f st b st' -> lwp (k b) Q st'
  end.

Lemma lstep_mono {B} (c : cmd B) st (K K' : B -> lst -> Prop) :
  (forall b st', K b st' -> K' b st') -> lstep c st K -> lstep c st K'.
Proof.
  intros H. destruct c as [[|[|n]]| | | | | | | | |]; cbn [lstep]; auto.
  - intros (H1 & H2 & H3). auto 7.
  - destruct (l_stack st); [auto|]. intros (H1 & H2 & H3 & H4). auto 6.
  - destruct (l_stack st); [auto|]. intros (H1 & H2 & H3). auto 6.
  - intros (H1 & f0 & t & H2 & H3). split; [auto|]. exists f0, t. auto.
Qed.
Lemma lwp_mono {A} (p : prog A) (Q Q' : A -> lst -> Prop) :
  (forall a st, Q a st -> Q' a st) -> forall st, lwp p Q st -> lwp p Q' st.
Proof.
  intros H. induction p as [a|B c k IH|f k IH]; intros st; cbn [lwp]; auto.
  - apply lstep_mono. auto.
  - intros [H1 H2]. split; auto.
Qed.
Lemma lwp_bind {A B} (p : prog A) (q : A -> prog B) Q st :
  lwp p (fun a st' => lwp (q a) Q st') st -> lwp (pbind p q) Q st.
Proof.
  revert st. induction p as [a|C c k IH|f k IH]; intros st; cbn [lwp pbind]; auto.
  - apply lstep_mono. auto.
  - intros [H1 H2]. split; auto.
Qed.

(** ** Soundness *)
Definition loutcome (t : text) {A} (Q : A -> lst -> Prop) (r : res (A * pstate)) : Prop :=
  match r with
  | Ok (a, s') => has_err (ps_events s') \/ exists st', lrel t s' st' /\ Q a st'
  | _ => True
  end.

Lemma lexec_sound t {B} (c : cmd B) s st (K : B -> lst -> Prop) :
  lrel t s st -> lstep c st K -> loutcome t K (exec c s).
Proof.
  intros [R N U] HK. destruct (exec c s) as [[b s']|w|] eqn:E; [|exact I..]. cbn [loutcome].
  (* the abstract state after the command, but for the token ahead *)
  assert (X : forall P : B -> ast -> Prop, step c (to_ast st) P -> exists a, rel t s' a /\ P b a).
  { intros P HP. pose proof (exec_sound t c s (to_ast st) P R HP) as O. rewrite E in O. exact O. }
  assert (SameLexer : ps_lexer s' = ps_lexer s -> forall a l Ks S, rel t s' (Ast a l Ks S) ->
    lrel t s' (L a (l_next st) l Ks S)).
  { intros El a l Ks S Ra. constructor; [exact Ra| |exact U]. cbn [l_next]. rewrite El. exact N. }
  destruct c as [[|[|n]]| | | |k|msg|m k|m|c|b0]; cbn [lstep] in HK.
  - destruct (X (fun x a => a = to_ast st /\ x = l_cur st)) as (a & Ra & -> & ->); [cbn; auto|]. right. exists st. split; [|exact HK].
    cbn [exec] in E. unfold exec_nth in E. apply bind_ok in E as (? & _ & E). apply bind_ok in E as (? & _ & E).
    apply bind_ok in E as (? & _ & E). injection E as _ <-. constructor; auto.
  - destruct (X (fun x a => a = to_ast st)) as (a & Ra & ->); [cbn; auto|]. right. eexists. split; [|apply HK].
    cbn [exec] in E. unfold exec_nth in E. apply bind_ok in E as (? & _ & E). apply bind_ok in E as (? & _ & E).
    apply bind_ok in E as (tok & Et & E). injection E as E0 <-. constructor; [exact Ra| |exact U]. cbn [l_next ps_lexer].
    intros k Ek. injection Ek as <-. eauto.
  - destruct (X (fun x a => a = to_ast st)) as (a & Ra & ->); [cbn; auto|]. right. exists st. split; [|apply HK].
    cbn [exec] in E. unfold exec_nth in E. apply bind_ok in E as (? & _ & E). apply bind_ok in E as (? & _ & E).
    apply bind_ok in E as (tok & Et & E). injection E as E0 <-. constructor; auto.
  - destruct (X (fun x a => a = to_ast st /\ x = l_cur st)) as (a & Ra & -> & ->); [cbn; auto|]. right. exists st. split; [|exact HK].
    cbn [exec] in E. injection E as _ <-. constructor; auto.
  - destruct (X (fun x a => a = to_ast st)) as (a & Ra & ->); [cbn; auto|]. right. exists st. split; [|apply HK].
    cbn [exec] in E. apply bind_ok in E as (? & _ & E). injection E as _ <-. constructor; auto.
  - destruct (X (fun m a => a = Ast (l_cur st) None [] (Open m None (l_kids st) :: l_stack st))) as (a & Ra & ->); [cbn; auto|].
    right. eexists. split; [|apply HK]. apply SameLexer; [|exact Ra]. cbn [exec] in E. injection E as _ <-. reflexivity.
  - destruct HK as (H1 & H2 & HK).
    destruct (X (fun _ a => exists cur', is_trivia cur' = false /\ a = Ast cur' None (l_kids st ++ [TTok k]) (l_stack st)))
      as (a & Ra & cur' & Hc & ->); [cbn; eauto 8|].
    right. exists (L cur' None None (l_kids st ++ [TTok k]) (l_stack st)). split; [constructor; [exact Ra|discriminate|exact U]|].
    cbn [exec] in E. apply bind_ok in E as (s1 & E1 & E). injection E as <- <-. unfold exec_do_bump in E1.
    apply bind_ok in E1 as (lx' & B1 & E1). injection E1 as <-.
    pose proof (cur_kind _ _ _ _ (r_lex _ _ _ Ra)) as C. cbn [a_cur ps_lexer] in C.
    destruct R as [_ _ RX _]. destruct RX as (gs & rest & len & I & _). cbn [to_ast a_cur] in I.
    apply HK; [exact Hc| |].
    + intros k' En Ht. destruct (N _ En) as (tok & El & Ek).
      rewrite <- C, <- Ek. eapply ahead_bump; eauto. congruence.
    + intros Pl Ei Eb k' En. destruct (N _ En) as (tok & El & Ek). rewrite Ei in I.
      rewrite <- Ek. eapply ahead_plain; eauto. congruence.
  - left. cbn [exec] in E. injection E as _ <-. cbn. apply has_err_app. right. constructor. exact I.
  - destruct (l_stack st) as [|o stk] eqn:Es; [destruct HK|]. destruct HK as (H1 & H2 & H3 & HK).
    destruct (X (fun c a => a = Ast (l_cur st) (Some c) (o_before o ++ [TNode k (opt_tree (o_first o) ++ l_kids st)]) stk))
      as (a & Ra & ->); [cbn; rewrite Es; auto 6|].
    right. eexists. split; [|apply HK]. apply SameLexer; [|exact Ra].
    cbn [exec] in E. unfold exec_complete in E. destruct (nth_error (ps_events s) m) as [[k0 fp| | |]|]; try discriminate.
    injection E as _ <-. reflexivity.
  - destruct (l_stack st) as [|o stk] eqn:Es; [destruct HK|]. destruct HK as (H1 & H2 & HK).
    destruct (X (fun c a => a = Ast (l_cur st) None (o_before o ++ l_kids st) stk))
      as (a & Ra & ->); [cbn; rewrite Es; auto 6|].
    right. destruct b. eexists. split; [|apply HK]. apply SameLexer; [|exact Ra].
    cbn [exec] in E. apply bind_ok in E as (s1 & E1 & E). injection E as <-. unfold exec_abandon in E1.
    destruct (Nat.eqb (S m) (length (ps_events s))); [|injection E1 as <-; reflexivity].
    destruct (nth_error (ps_events s) m) as [[k0 fp| | |]|]; try discriminate.
    destruct k0; try discriminate. destruct fp; try discriminate. injection E1 as <-. reflexivity.
  - destruct HK as (H1 & f0 & x & H2 & HK).
    destruct (X (fun m a => a = Ast (l_cur st) None [] (Open m (Some x) f0 :: l_stack st)))
      as (a & Ra & ->); [cbn; split; [exact H1|]; exists f0, x; auto|].
    right. eexists. split; [|apply HK]. apply SameLexer; [|exact Ra].
    cbn [exec] in E. unfold exec_precede in E. cbn [exec_start] in E.
    destruct (nth_error (ps_events (push_event s tombstone)) (cm_start c)) as [[k0 fp| | |]|]; try discriminate.
    apply bind_ok in E as (? & _ & E). injection E as _ <-. reflexivity.
  - destruct (X (fun _ a => a = to_ast st /\ b0 = true)) as (a & Ra & -> & Hb); [cbn; auto|].
    right. destruct b. exists st. split; [|auto].
    cbn [exec] in E. apply bind_ok in E as (? & _ & E). injection E as <-. constructor; auto.
Qed.

Lemma linterp_sound t fuel :
  (forall f s st, lrel t s st -> lpre f st -> loutcome t (lpost f st) (run fuel f s)) ->
  forall A (p : prog A) s st Q, lrel t s st -> lwp p Q st -> loutcome t Q (interp (run fuel) p s).
Proof.
  intros HR A p. induction p as [a|B c k IH|f k IH]; intros s st Q R W; cbn [interp lwp] in *.
  - cbn [loutcome]. eauto.
  - pose proof (lexec_sound t c s st _ R W) as E. destruct (exec c s) as [[b s']|w|]; cbn [bind loutcome] in *; auto.
    destruct E as [E|(st' & R' & W')]; [|exact (IH b s' st' Q R' W')].
    destruct (interp (run fuel) (k b) s') as [[x s2]|w|] eqn:E2; cbn [loutcome]; auto.
    left. eapply interp_errs; [|exact E2|exact E]. apply run_errs.
  - destruct W as [Hp W]. pose proof (HR f s st R Hp) as E.
    destruct (run fuel f s) as [[b s']|w|]; cbn [bind loutcome] in *; auto.
    destruct E as [E|(st' & R' & W')]; [|exact (IH b s' st' Q R' (W _ _ W'))].
    destruct (interp (run fuel) (k b) s') as [[x s2]|w|] eqn:E2; cbn [loutcome]; auto.
    left. eapply interp_errs; [|exact E2|exact E]. apply run_errs.
Qed.

Lemma lrun_sound t : (forall f st, lpre f st -> lwp (body f) (lpost f st) st) ->
  forall fuel f s st, lrel t s st -> lpre f st -> loutcome t (lpost f st) (run fuel f s).
Proof.
  intros HB fuel. induction fuel as [|fuel IH]; intros f s st R P; cbn [run]; [exact I|].
  apply (linterp_sound t fuel IH _ _ _ _ _ R). apply HB. exact P.
Qed.
End Logic.
