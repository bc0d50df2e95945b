(** Every token that is no literal and no prefix operator costs a look at the next
    token, unless an error was reported before. *)
From Coq Require Import String.
From Verif Require Import Base BaseProofs Kinds KindsProofs LexSpec TokenSet Lexer LexerRuns LexerProofs LexerStateProofs
  Parser Grammar Sink TreeSpec ParserLogic GrammarProofs ProcessProofs SinkProofs TermProofs ParseProofs SyntaxSpec ShapeSpec ShapeProofs StreamProofs
  SharedProofs GapTop.
Local Open Scope N_scope.

Definition toll_free (k : kind) : bool :=
  is_trivia k || existsb (kind_eqb k) [TRUE_KW; FALSE_KW; INTEGER_NUMBER; HEX_STRING; BYTE_STRING; STAR; BANG; MINUS].

(** What a command does to the credit (looks not yet spent on a token) and to what
    is known of the current token. *)
Inductive after := Go (c : nat) (cur : option kind) | Fine | Bad.
Definition effect {B} (cm : cmd B) : B -> nat -> option kind -> after :=
  match cm in cmd B return B -> nat -> option kind -> after with
  | CNth _ => fun _ c cur => Go (S c) cur
  | CCurrent => fun b c cur =>
      match cur with Some x => if kind_eqb x b then Go c (Some b) else Fine | None => Go c (Some b) end
  | CDoBump k => fun _ c cur => if toll_free k then Go c None else match c with O => Bad | S c' => Go c' None end
  | CError _ => fun _ _ _ => Fine
  | _ => fun _ c cur => Go c cur
  end.
Definition skips (f : fn) : bool := match f with F_skip_until _ => true | _ => false end.
Fixpoint pwp {A} (p : prog A) (Q : A -> nat -> Prop) (c : nat) (cur : option kind) : Prop :=
  match p with
  | Ret a => Q a c
  | Do cm k => forall b, match effect cm b c cur with Go c' cur' => pwp (k b) Q c' cur' | Fine => True | Bad => False end
  | Call f k => skips f = false /\ forall b, pwp (k b) Q c None
  end.
Definition keeps {A} (p : prog A) : Prop := forall c cur, pwp p (fun _ c' => (c <= c')%nat) c cur.

Lemma pwp_bind {A B} (p : prog A) (q : A -> prog B) Q : forall c cur,
  pwp p (fun a c' => forall cur', pwp (q a) Q c' cur') c cur -> pwp (pbind p q) Q c cur.
Proof.
  induction p as [a|C cm k IH|f k IH]; intros c cur H; cbn [pbind pwp] in *.
  - apply H.
  - intros b. specialize (H b). destruct (effect cm b c cur); auto.
  - destruct H as [H1 H2]. split; auto.
Qed.
Lemma pwp_mono {A} (p : prog A) (Q R : A -> nat -> Prop) : (forall a c, Q a c -> R a c) -> forall c cur, pwp p Q c cur -> pwp p R c cur.
Proof.
  intros H. induction p as [a|C cm k IH|f k IH]; intros c cur W; cbn [pwp] in *; auto.
  - intros b. specialize (W b). destruct (effect cm b c cur); auto.
  - destruct W. split; auto.
Qed.
Lemma keeps_bind {A B} (p : prog A) (q : A -> prog B) : keeps p -> (forall a, keeps (q a)) -> keeps (pbind p q).
Proof.
  intros Hp Hq c cur. apply pwp_bind. eapply pwp_mono; [|apply Hp]. intros a c' L cur'. cbv beta in L.
  eapply pwp_mono; [|apply Hq]. cbv beta. intros. lia.
Qed.

Lemma keeps_eat k : keeps (eat k).
Proof.
  intros c cur. unfold eat, at_, nth_at, nth_, do_bump, do_. cbn. intros b. destruct (kind_eqb b k); cbn; [|lia].
  intros _. destruct (toll_free k); cbn; lia.
Qed.
Lemma keeps_bump_remap k : keeps (bump_remap k).
Proof.
  intros c cur. unfold bump_remap, nth_, do_bump, do_. cbn. intros b. destruct (kind_eqb b EOF); cbn; [lia|].
  intros _. destruct (toll_free k); cbn; lia.
Qed.
Lemma keeps_err_recover m r : keeps (err_recover m r).
Proof.
  intros c cur. unfold err_recover, at_ts, current, start, error, do_. cbn. intros b.
  assert (G : forall cur, pwp (if kind_eqb b L_BRACE || kind_eqb b R_BRACE then Do (CError m) Ret
    else Do CCurrent (fun x => pbind (Ret (ts_has r x)) (fun r0 => if r0 then Do (CError m) Ret else
      Do CStart (fun m0 => Do (CError m) (fun _ => pbind bump_any (fun _ => pbind (complete m0 ERROR) (fun _ => Ret tt))))))) (fun _ c' => (c <= c')%nat) c cur).
  { intros u. destruct (kind_eqb b L_BRACE || kind_eqb b R_BRACE); cbn; [auto|]. intros x.
    assert (V : forall v, pwp (if ts_has r x then Do (CError m) Ret else
      Do CStart (fun m0 => Do (CError m) (fun _ => pbind bump_any (fun _ => pbind (complete m0 ERROR) (fun _ => Ret tt))))) (fun _ c' => (c <= c')%nat) c v).
    { intros v. destruct (ts_has r x); cbn; auto. }
    destruct u as [y|]; [destruct (kind_eqb y x)|]; auto; apply V. }
  destruct cur as [y|]; [destruct (kind_eqb y b)|]; auto; apply G.
Qed.
Lemma keeps_error_skip m e : keeps (error_and_skip_until m e).
Proof. intros c cur. unfold error_and_skip_until, start, error, do_. cbn. auto. Qed.
Lemma keeps_error_block m : keeps (error_block m).
Proof. intros c cur. unfold error_block, assert_p, at_, nth_at, nth_, start, error, do_. cbn. auto. Qed.

Ltac kp := lazymatch goal with
  | |- keeps (eat _) => apply keeps_eat
  | |- keeps (bump_remap _) => apply keeps_bump_remap
  | |- keeps (err_recover _ _) => apply keeps_err_recover
  | |- keeps (error_and_skip_until _ _) => apply keeps_error_skip
  | |- keeps (error_block _) => apply keeps_error_block
  | |- keeps (pbind _ _) => apply keeps_bind; [kp | intro; kp]
  | |- keeps (Ret _) => intros ? ?; cbn; lia
  | |- keeps (do_ CCurrent) => intros ? [?|]; cbn; intros ?; [destruct (kind_eqb _ _)|]; cbn; auto; lia
  | |- keeps (do_ _) => intros ? ?; cbn; intros; auto; lia
  | |- keeps (call _) => intros ? ?; cbn; split; [reflexivity|intros; lia]
  | |- keeps (match ?x with _ => _ end) => destruct x; kp
  | |- keeps (let '_ := ?x in _) => destruct x; kp
  | |- keeps ?p => let p' := eval red in p in change (keeps p'); cbv beta; kp
  end.

Lemma keeps_address_lit : keeps address_lit.
Proof. kp. Qed.
(** [bump_any] where the current token is known to be free *)
Lemma pwp_bump_any c x (Q : unit -> nat -> Prop) : toll_free x = true -> Q tt c -> pwp bump_any Q c (Some x).
Proof.
  intros F H. unfold bump_any, current, do_bump, do_. cbn. intros b. destruct (kind_eqb x b) eqn:E; [|exact I].
  apply kind_eqb_eq in E; subst b. destruct (kind_eqb x EOF); cbn; [exact H|]. rewrite F. cbn. intros []. exact H.
Qed.
Lemma literal_free b : ts_has LITERAL_FIRST b = true -> kind_eqb b ATSIGN = false -> toll_free b = true.
Proof. destruct b; vm_compute; congruence. Qed.
Lemma keeps_literal : keeps literal.
Proof.
  intros c cur. unfold literal, at_ts, current, start, do_. cbn [pbind pwp]. intros b. cbn [effect].
  assert (G : pwp (if negb (ts_has LITERAL_FIRST b) then Ret None else
     Do CStart (fun m => Do CCurrent (fun c => pbind (if kind_eqb c ATSIGN then pbind address_lit (fun _ => Ret tt) else bump_any)
        (fun _ => pbind (complete m LITERAL) (fun d => Ret (Some d)))))) (fun _ c' => (c <= c')%nat) c (Some b)).
  { destruct (ts_has LITERAL_FIRST b) eqn:T; cbn [negb pwp]; [|lia]. intros m. cbn [effect]. intros x.
    cbn [effect]. destruct (kind_eqb b x) eqn:E; [|exact I]. apply kind_eqb_eq in E; subst x.
    apply pwp_bind.
    assert (Z : forall c', (c <= c')%nat -> forall cur', pwp (pbind (complete m LITERAL) (fun d => Ret (Some d))) (fun (_ : option cmark) c' => (c <= c')%nat) c' cur').
    { intros c' L cur'. cbn. intros _. exact L. }
    destruct (kind_eqb b ATSIGN) eqn:Ea.
    - apply pwp_bind. eapply pwp_mono; [|apply keeps_address_lit]. cbv beta. intros _ c' L cur'. cbn [pwp]. intros cur2. apply Z. exact L.
    - apply pwp_bump_any; [apply literal_free; assumption|]. apply Z. lia. }
  destruct cur as [y|]; [destruct (kind_eqb y b)|]; auto.
Qed.
Lemma keeps_atom : keeps atom_expr.
Proof. unfold atom_expr. apply keeps_bind; [apply keeps_literal|]. intros []; kp. Qed.
Lemma keeps_lhs : keeps lhs_.
Proof.
  intros c cur. unfold lhs_, current, start, do_. cbn [pbind pwp]. intros b. cbn [effect].
  assert (G : forall cur, pwp (a <- atom_expr ;; match a with None => Ret None | Some l => d <- (call (F_postfix l) : prog cmark) ;; Ret (Some d) end)
      (fun _ c' => (c <= c')%nat) c cur).
  { assert (K : keeps (a <- atom_expr ;; match a with None => Ret None | Some l => d <- (call (F_postfix l) : prog cmark) ;; Ret (Some d) end)); [|apply K].
    apply keeps_bind; [apply keeps_atom|]. intros []; kp. }
  assert (H : pwp (if kind_eqb b STAR || kind_eqb b BANG || kind_eqb b MINUS then
      Do CStart (fun m => pbind bump_any (fun _ => pbind (call (F_expr_bp 255)) (fun _ => pbind (complete m PREFIX_EXPR) (fun d => Ret (Some d)))))
     else (a <- atom_expr ;; match a with None => Ret None | Some l => d <- (call (F_postfix l) : prog cmark) ;; Ret (Some d) end)) (fun _ c' => (c <= c')%nat) c (Some b)).
  { destruct (kind_eqb b STAR || kind_eqb b BANG || kind_eqb b MINUS) eqn:E; [|apply G].
    cbn [pwp]. intros m. cbn [effect]. apply pwp_bind. apply pwp_bump_any.
    - destruct b; try discriminate E; reflexivity.
    - intros cur'. cbn. split; [reflexivity|]. intros _ _. lia. }
  destruct cur as [y|]; [destruct (kind_eqb y b)|]; auto; exact H.
Qed.
Lemma keeps_root_body : keeps root_body.
Proof.
  unfold root_body. apply keeps_bind; [kp|]. intros [|]; [kp|]. apply keeps_bind; [kp|]. intros [|]; [kp|].
  apply keeps_bind; [kp|]. intros [|]; [kp|]. apply keeps_bind; [kp|]. intros [|]; [kp|].
  intros c cur. unfold current, do_. cbn [pbind pwp]. intros b. cbn [effect].
  assert (H : pwp (if is_trivia b then pbind bump_any (fun _ => call F_root) else pbind (error (`"expected module or script")) (fun _ => call F_root))
     (fun _ c' => (c <= c')%nat) c (Some b)).
  { destruct (is_trivia b) eqn:E.
    - apply pwp_bind. apply pwp_bump_any; [unfold toll_free; now rewrite E|]. intros cur'. cbn. split; [reflexivity|]. lia.
    - cbn. auto. }
  destruct cur as [y|]; [destruct (kind_eqb y b)|]; auto; exact H.
Qed.
Lemma keeps_expr_bp bp : keeps (expr_bp_body bp).
Proof. unfold expr_bp_body. apply keeps_bind; [apply keeps_lhs|]. intros []; kp. Qed.
Lemma keeps_body f : skips f = false -> keeps (body f).
Proof.
  destruct f; intros S; try discriminate S; cbn [body]; first [apply keeps_root_body | apply keeps_expr_bp | kp].
Qed.
Lemma keeps_root : keeps root.
Proof. kp. Qed.

(** ** What was paid is there *)
Definition tolls (evs : list event) : nat :=
  length (filter (fun e => match e with EToken k _ => negb (toll_free k) | _ => false end) evs).
Lemma tolls_app a b : tolls (a ++ b) = (tolls a + tolls b)%nat.
Proof. unfold tolls. rewrite filter_app, app_length. reflexivity. Qed.
Lemma tolls_sig evs : tolls (sig evs) = tolls evs.
Proof. unfold tolls, sig. induction evs as [|e evs IH]; [reflexivity|]. destruct e; cbn [filter telling]; auto. destruct (toll_free k); cbn; auto. Qed.
Definition errored (s : pstate) : Prop := heard 0 (ps_events s) <> [].
Lemma errored_more s s' : more s s' -> errored s -> errored s'.
Proof.
  intros [x E] H H'. apply H. rewrite <- heard_sig in H' |- *. rewrite E, heard_app in H'. now apply app_eq_nil in H'.
Qed.
Definition paid (c : nat) (s : pstate) : Prop := errored s \/ N.of_nat (tolls (ps_events s) + c) <= ps_steps s.
Definition known (cur : option kind) (s : pstate) : Prop :=
  match cur with Some k => t_kind (lx_current (ps_lexer s)) = k | None => True end.

Lemma tolls_more_eq s s' : sig (ps_events s') = sig (ps_events s) -> tolls (ps_events s') = tolls (ps_events s).
Proof. intros E. rewrite <- (tolls_sig (ps_events s')), E. apply tolls_sig. Qed.

Lemma exec_paid {B} (cm : cmd B) s b s' c cur : exec cm s = Ok (b, s') -> known cur s -> paid c s -> ~ errored s' ->
  match effect cm b c cur with Go c' cur' => paid c' s' /\ known cur' s' | Fine => False | Bad => True end.
Proof.
  intros X K P N. pose proof (exec_more _ _ _ _ X) as M.
  assert (NE : ~ errored s) by (intros E; apply N; eapply errored_more; eassumption).
  destruct P as [P|P]; [contradiction|].
  destruct cm; cbn [exec effect] in *.
  - unfold exec_nth in X. destruct (Nat.leb n 3); [|discriminate X]. cbn [assert_ bind] in X.
    destruct (ps_steps s <=? 10000); [|discriminate X]. cbn [assert_ bind] in X.
    destruct (lx_lookahead_nth (ps_lexer s) n) as [t| |]; cbn [bind] in X; try discriminate X. injection X as <- <-.
    split; [right; cbn [ps_events ps_steps]; lia|]. destruct cur; cbn in *; auto.
  - injection X as <- <-. destruct cur as [y|]; cbn [known] in K.
    + subst y. replace (kind_eqb _ _) with true by (symmetry; now apply kind_eqb_eq). split; [right; exact P|reflexivity].
    + split; [right; exact P|reflexivity].
  - destruct (lx_current_text (ps_lexer s)); cbn [bind] in X; try discriminate X. injection X as <- <-. split; [right; exact P|exact K].
  - injection X as <- <-. split; [|exact K]. right. cbn [push_event with_events ps_events ps_steps]. rewrite tolls_app. unfold tolls at 2. cbn [filter length tombstone]. lia.
  - unfold exec_do_bump in X. destruct (lx_bump (ps_lexer s)) as [lx| |]; cbn [bind] in X; try discriminate X. injection X as <- <-.
    cbn [ps_events ps_steps]. destruct (toll_free k) eqn:F.
    + split; [|exact I]. right. cbn [push_event with_events ps_events ps_steps]. rewrite tolls_app. unfold tolls at 2. cbn [filter]. rewrite F. cbn [negb length]. lia.
    + destruct c as [|c]; [exact I|]. split; [|exact I]. right. cbn [push_event with_events ps_events ps_steps]. rewrite tolls_app. unfold tolls at 2. cbn [filter]. rewrite F. cbn [negb length]. lia.
  - injection X as <- <-. apply N. unfold errored. cbn. rewrite heard_app. cbn. intros E. now apply app_eq_nil in E as [_ E].
  - unfold exec_complete in X. destruct (nth_error (ps_events s) m) as [e|] eqn:E; [|discriminate X]. destruct e; try discriminate X.
    injection X as <- <-. split; [|exact K]. right. cbn [push_event with_events ps_events ps_steps]. rewrite tolls_app.
    assert (Z : tolls (set_nth (ps_events s) m (EStart k forward_parent)) = tolls (ps_events s)); [|rewrite Z; unfold tolls at 2; cbn [filter length]; lia].
    rewrite <- tolls_sig, (sig_set _ _ _ _ _ _ E), tolls_sig. reflexivity.
  - unfold exec_abandon in X. destruct (Nat.eqb (S m) (length (ps_events s))) eqn:El.
    + destruct (nth_error (ps_events s) m) as [[[] []| | |]|] eqn:E; try discriminate X. cbn [bind] in X. injection X as <- <-. split; [|exact K].
      right. cbn [push_event with_events ps_events ps_steps]. apply Nat.eqb_eq in El. rewrite <- tolls_sig, (sig_last _ _ _ _ El E), tolls_sig. exact P.
    + cbn [bind] in X. injection X as <- <-. split; [right; exact P|exact K].
  - unfold exec_precede in X. cbn [exec_start] in X. destruct (nth_error _ (cm_start c0)) as [e|] eqn:E; [|discriminate X]. destruct e; try discriminate X.
    destruct (Nat.leb _ _); cbn [bind] in X; [|discriminate X]. injection X as <- <-. split; [|exact K]. right. cbn [push_event with_events ps_events ps_steps].
    rewrite <- tolls_sig, (sig_set _ _ _ _ _ _ E), tolls_sig. cbn [push_event ps_events]. rewrite tolls_app. unfold tolls at 2. cbn [filter length tombstone]. lia.
  - destruct b0; cbn [assert_ bind] in X; [|discriminate X]. injection X as <- <-. split; [right; exact P|exact K].
Qed.

Lemma interp_paid (r : forall f, pstate -> res (fn_ret f * pstate)) :
  (forall f s a s', r f s = Ok (a, s') -> more s s') ->
  (forall f s a s' c, skips f = false -> r f s = Ok (a, s') -> paid c s -> paid c s') ->
  forall {A} (p : prog A) Q c cur s a s', pwp p Q c cur -> known cur s -> paid c s -> interp r p s = Ok (a, s') ->
  errored s' \/ exists c', Q a c' /\ paid c' s'.
Proof.
  intros Hm Hr A p Q. induction p as [x|C cm k IH|f k IH]; intros c cur s a s' W K P X; cbn [interp pwp] in *.
  - injection X as <- <-. eauto.
  - destruct (exec cm s) as [[b s1]| |] eqn:E; cbn [bind] in X; try discriminate X. specialize (W b).
    pose proof (interp_grows r Hm _ _ _ _ _ X) as M.
    assert (D : errored s1 \/ ~ errored s1) by (unfold errored; destruct (heard 0 (ps_events s1)); [right|left]; congruence).
    destruct D as [D|D]; [left; eapply errored_more; eassumption|].
    pose proof (exec_paid _ _ _ _ _ _ E K P D) as Y. destruct (effect cm b c cur); [|contradiction|contradiction].
    destruct Y as [Y1 Y2]. eapply IH; eassumption.
  - destruct W as [Ws W]. destruct (r f s) as [[b s1]| |] eqn:E; cbn [bind] in X; try discriminate X.
    eapply IH; [apply W|exact I|eapply Hr; eassumption|exact X].
Qed.
Lemma run_paid n : forall f s a s' c, skips f = false -> run n f s = Ok (a, s') -> paid c s -> paid c s'.
Proof.
  induction n as [|n IH]; intros f s a s' c Sk X P; [discriminate X|]. cbn [run] in X.
  destruct (interp_paid (run n) (run_grows n) IH (body f) _ c None s a s' (keeps_body f Sk c None) I P X) as [E|(c' & L & P')]; [left; exact E|].
  cbv beta in L. destruct P' as [E|P']; [left; exact E|right; lia].
Qed.
(** the counter never passes its limit *)
Lemma interp_steps n : forall A (p : prog A) s a s', interp (run n) p s = Ok (a, s') -> ps_steps s <= 10001 -> ps_steps s' <= 10001.
Proof.
  assert (EX : forall {B} (cm : cmd B) s b s', exec cm s = Ok (b, s') -> ps_steps s <= 10001 -> ps_steps s' <= 10001).
  { intros B cm s b s' X L. destruct cm; cbn [exec] in X.
    - unfold exec_nth in X. destruct (Nat.leb n0 3); [|discriminate X]. cbn [assert_ bind] in X.
      destruct (ps_steps s <=? 10000) eqn:E; [|discriminate X]. cbn [assert_ bind] in X. apply N.leb_le in E.
      destruct (lx_lookahead_nth (ps_lexer s) n0) as [t| |]; cbn [bind] in X; try discriminate X. injection X as <- <-. cbn. lia.
    - injection X as <- <-. exact L.
    - destruct (lx_current_text (ps_lexer s)); cbn [bind] in X; try discriminate X. injection X as <- <-. exact L.
    - injection X as <- <-. exact L.
    - unfold exec_do_bump in X. destruct (lx_bump (ps_lexer s)) as [lx| |]; cbn [bind] in X; try discriminate X. injection X as <- <-. exact L.
    - injection X as <- <-. exact L.
    - unfold exec_complete in X. destruct (nth_error (ps_events s) m) as [e|]; [|discriminate X]. destruct e; try discriminate X. injection X as <- <-. exact L.
    - unfold exec_abandon in X. destruct (Nat.eqb (S m) (length (ps_events s))).
      + destruct (nth_error (ps_events s) m) as [[[] []| | |]|]; try discriminate X. cbn [bind] in X. injection X as <- <-. exact L.
      + cbn [bind] in X. injection X as <- <-. exact L.
    - unfold exec_precede in X. cbn [exec_start] in X. destruct (nth_error _ (cm_start c)) as [e|]; [|discriminate X]. destruct e; try discriminate X.
      destruct (Nat.leb _ _); cbn [bind] in X; [|discriminate X]. injection X as <- <-. exact L.
    - destruct b0; cbn [assert_ bind] in X; [|discriminate X]. injection X as <- <-. exact L. }
  assert (IN : forall (r : forall f, pstate -> res (fn_ret f * pstate)), (forall f s a s', r f s = Ok (a, s') -> ps_steps s <= 10001 -> ps_steps s' <= 10001) ->
    forall A (p : prog A) s a s', interp r p s = Ok (a, s') -> ps_steps s <= 10001 -> ps_steps s' <= 10001).
  { intros r Hr A p. induction p as [x|C cm k IH|f k IH]; intros s a s' X L; cbn [interp] in X.
    - injection X as <- <-. exact L.
    - destruct (exec cm s) as [[b s1]| |] eqn:E; cbn [bind] in X; try discriminate X. eapply IH; [exact X|eapply EX; eassumption].
    - destruct (r f s) as [[b s1]| |] eqn:E; cbn [bind] in X; try discriminate X. eapply IH; [exact X|eapply Hr; eassumption]. }
  assert (RU : forall f s a s', run n f s = Ok (a, s') -> ps_steps s <= 10001 -> ps_steps s' <= 10001).
  { induction n as [|n IH]; intros f s a s' X L; [discriminate X|]. cbn [run] in X. eapply IN; eassumption. }
  exact (IN (run n) RU).
Qed.

(** ** The whole file *)
Definition tolled (p : kind * text) : bool := negb (toll_free (fst p)).
Lemma tolled_groups gs ks : Forall2 (fun g k => remap (fst (fst g)) k) gs ks -> Forall group_ok gs ->
  (length (filter tolled (ungroup gs)) <= length (filter (fun k => negb (toll_free k)) ks))%nat.
Proof.
  induction 1 as [|[[k0 w] tr] k gs ks R _ IH]; intros G; [cbn; lia|]. inversion G as [|? ? [Gt _] G']; subst. specialize (IH G').
  change (ungroup ((k0, w, tr) :: gs)) with (((k0, w) :: tr) ++ ungroup gs). cbn [fst snd app] in *.
  assert (Z : filter tolled tr = []).
  { clear - Gt. induction Gt as [|x l Hx _ IH]; [reflexivity|]. cbn [filter]. rewrite IH. unfold tolled, toll_free. unfold trivia_piece in Hx. rewrite Hx. reflexivity. }
  change (filter tolled ((k0, w) :: tr ++ ungroup gs)) with (if tolled (k0, w) then (k0, w) :: filter tolled (tr ++ ungroup gs) else filter tolled (tr ++ ungroup gs)).
  rewrite filter_app, Z. cbn [app]. change (tolled (k0, w)) with (negb (toll_free k0)).
  change (filter (fun k => negb (toll_free k)) (k :: ks)) with
    (if negb (toll_free k) then k :: filter (fun k => negb (toll_free k)) ks else filter (fun k => negb (toll_free k)) ks).
  destruct R as [E|[E1 E2]].
  - rewrite E. destruct (negb (toll_free k0)); cbn [length]; lia.
  - rewrite E1, E2. cbn [toll_free is_trivia negb orb existsb kind_eqb length]. change (toll_free INTEGER_NUMBER) with true. change (toll_free DIEM_ADDRESS) with false.
    cbn [negb length]. lia.
Qed.
Lemma tolls_kinds evs : tolls evs = length (filter (fun k => negb (toll_free k)) (kinds evs)).
Proof.
  unfold tolls, kinds. induction evs as [|e evs IH]; [reflexivity|]. destruct e; cbn [filter flat_map app]; auto.
  destruct (toll_free k); cbn [negb length]; rewrite ?IH; reflexivity.
Qed.
Lemma size_limit t ws g : tlen t < u32_bound -> token_stream t ws -> ascii_literals ws -> parse_text t = Ok (g, []) ->
  N.of_nat (length (filter tolled ws)) <= 10001.
Proof.
  intros Hs Ts A PT. destruct (parse_told _ _ _ _ Hs Ts A PT) as (lx & n & s & HL & S & R & I & T).
  destruct (I _ (Nat.le_max_l n (parse_fuel (lx_text lx)))) as (u & X). set (m := Nat.max n (parse_fuel (lx_text lx))) in *.
  destruct T as [Sp _]. inversion Sp as [Hh|].
  assert (NE : ~ errored s) by (intros E; apply E; congruence).
  pose proof (interp_steps m _ _ _ _ _ X) as L. cbn in L. specialize (L ltac:(lia)).
  destruct (interp_paid (run m) (run_grows m) (run_paid m) root _ 0%nat None (parser_new lx) u s (keeps_root 0%nat None) Logic.I ltac:(right; cbn; lia) X) as [E|(c & _ & P)]; [contradiction|].
  destruct P as [E|P]; [contradiction|]. rewrite tolls_kinds in P.
  pose proof (grammar_sound t lx m HL) as GS. rewrite X in GS. cbn in GS.
  destruct GS as (F & gs & G).
  assert (Ug : ungroup gs = ws).
  { destruct (build_ok _ _ _ _ _ Hs G) as (g' & errs' & B & O). eapply steps_same; [apply G|apply O|exact S|exact R]. }
  pose proof (p_den _ _ _ _ _ G) as D. pose proof (den_kinds _ _ D) as Dk. unfold fleaves in Dk. cbn [flat_map leaves] in Dk. rewrite app_nil_r in Dk.
  assert (T : (length (filter tolled (ungroup gs)) <= length (filter (fun k => negb (toll_free k)) (kinds (ps_events s))))%nat).
  { apply tolled_groups; [|apply G]. rewrite <- Dk. apply G. }
  rewrite Ug in T. lia.
Qed.
