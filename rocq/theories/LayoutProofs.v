(** Layouts that answer the parser's questions alike are parsed alike. *)
From Coq Require Import String.
From Verif Require Import Base BaseProofs Kinds KindsProofs LexSpec Lexer LexerRuns LexerProofs LexerStateProofs
  Parser Grammar Sink TreeSpec GreenSpec ParserLogic GrammarProofs ProcessProofs SinkProofs TermProofs ParseProofs
  ParserTotal AcceptTop SyntaxSpec ShapeSpec ShapeProofs LayoutSpec.
Local Open Scope N_scope.

Notation aleq := (Forall2 alike).

(** ** Two lexers at the same token of two layouts *)
Record mates (before : kind) (rem rem' : list pc) : Prop := {
  m_proper : aleq (proper rem) (proper rem');
  m_answers : answers before rem = answers before rem';
  m_first : cur_kind rem = cur_kind rem';
  m_hex : match rem, rem' with p :: _, q :: _ => is_trivia (fst p) = false -> alike p q | [], [] => True | _, _ => False end
}.
Record lside (lx : lexer) (rem : list pc) (k : kind) : Prop := {
  s_inv : exists t ws rest len, lx_inv t lx ws rest k len /\ steps rest rem [];
  s_real : Forall real rem
}.
Definition mate (before : kind) (lx lx' : lexer) (k : kind) : Prop :=
  exists rem rem', lside lx rem k /\ lside lx' rem' k /\ mates before rem rem' /\ k = cur_kind rem.

Lemma proper_app a b : proper (a ++ b) = proper a ++ proper b.
Proof. unfold proper. apply filter_app. Qed.
Lemma proper_trivia tr : Forall trivia_piece tr -> proper tr = [].
Proof. induction 1 as [|p tr H _ IH]; [reflexivity|]. cbn [proper filter]. unfold trivia_piece in H. rewrite H. exact IH. Qed.
Lemma answers_trivia b tr r : Forall trivia_piece tr -> answers b (tr ++ r) = answers b r.
Proof. induction 1 as [|p tr H _ IH]; [reflexivity|]. cbn [app answers]. unfold trivia_piece in H. rewrite H. exact IH. Qed.
Lemma proper_solid r : is_trivia (cur_kind r) = false -> proper r = match r with [] => [] | p :: q => p :: proper q end.
Proof. destruct r as [|p r]; [reflexivity|]. cbn [cur_kind proper filter]. intros ->. reflexivity. Qed.

Lemma next_seen_skip r :
  next_seen r = cur_kind ((fix skip l := match l with p :: r => if kind_eqb (fst p) WHITESPACE then skip r else l | [] => [] end) r).
Proof. induction r as [|p r IH]; [reflexivity|]. cbn [next_seen]. destruct (kind_eqb (fst p) WHITESPACE); [exact IH|reflexivity]. Qed.

Lemma look1_side lx rem k : lside lx rem k -> exists tok, lx_lookahead_nth lx 1 = Ok tok /\ t_kind tok = next_seen (tl rem).
Proof.
  intros [(t & ws & rest & len & I & S) R]. cbn [lx_lookahead_nth].
  destruct (after_cur _ _ _ _ _ _ _ I S) as (w & b & -> & -> & S1 & _).
  unfold lx_lookahead. rewrite (inv_slice_ok _ _ _ _ _ _ I). cbn [bind].
  destruct (look1 _ _ S1 (tl_real _ R)) as (n1 & ->). cbn [bind]. eexists. split; [reflexivity|].
  rewrite next_seen_skip. reflexivity.
Qed.
Lemma look2_side lx rem k : lside lx rem k -> exists tok, lx_lookahead_nth lx 2 = Ok tok /\ t_kind tok = second_raw (tl rem).
Proof.
  intros [(t & ws & rest & len & I & S) R]. cbn [lx_lookahead_nth].
  destruct (look2 _ _ _ _ _ _ _ I S) as (a & n & ->). cbn [bind snd]. eexists. split; [reflexivity|].
  destruct rem as [|? [|? [|? ?]]]; reflexivity.
Qed.
Lemma cur_side lx rem k : lside lx rem k -> t_kind (lx_current lx) = k.
Proof. intros [(t & ws & rest & len & I & S) R]. unfold lx_current. rewrite (li_tok _ _ _ _ _ _ I). reflexivity. Qed.
Lemma text_side lx rem k : lside lx rem k -> lx_current_text lx = Ok (match rem with [] => [] | p :: _ => snd p end).
Proof. intros [(t & ws & rest & len & I & S) R]. eapply cur_text; eauto. Qed.

Definition after (before k : kind) : kind := if is_trivia k then before else k.
Lemma bump_one lx rem k : lside lx rem k -> exists lx' rem1, lx_bump lx = Ok lx' /\ lside lx' rem1 (cur_kind rem1) /\
  is_trivia (cur_kind rem1) = false /\
  (rem = [] /\ k = EOF /\ rem1 = [] \/ exists w tr, rem = (k, w) :: tr ++ rem1 /\ Forall trivia_piece tr).
Proof.
  intros [(t & ws & rest & len & I & S) R].
  destruct (bump_side _ _ _ _ _ _ _ I S R) as (l & w & tr & rest1 & k1 & len1 & rem1 & B & T & I' & S' & C & E).
  exists l, rem1. split; [exact B|]. rewrite <- (find_cur _ _ _ _ S' (li_cur _ _ _ _ _ _ I')) in *. split; [|split; [exact C|]].
  - constructor; [eauto 8|]. destruct E as [(-> & _ & _ & _ & ->)| -> ]; [constructor|].
    inversion R as [|? ? _ R1]; subst. apply Forall_app in R1 as [_ R1]. exact R1.
  - destruct E as [(-> & -> & _ & _ & ->)| -> ]; [left; auto|right; eauto].
Qed.

Lemma mates_after before k w tr r w' tr' r' : Forall trivia_piece tr -> Forall trivia_piece tr' ->
  is_trivia (cur_kind r) = false -> is_trivia (cur_kind r') = false ->
  mates before ((k, w) :: tr ++ r) ((k, w') :: tr' ++ r') -> mates (after before k) r r'.
Proof.
  intros T T' C C' [P A _ _]. unfold after.
  assert (Q : aleq (proper r) (proper r') /\ answers (if is_trivia k then before else k) r = answers (if is_trivia k then before else k) r').
  { cbn [proper filter answers fst] in P, A. destruct (is_trivia k) eqn:K; cbn [negb] in P.
    - fold (proper (tr ++ r)) (proper (tr' ++ r')) in P. rewrite !proper_app, (proper_trivia _ T), (proper_trivia _ T') in P.
      rewrite !answers_trivia in A by assumption. auto.
    - fold (proper (tr ++ r)) (proper (tr' ++ r')) in P. rewrite !proper_app, (proper_trivia _ T), (proper_trivia _ T') in P.
      inversion P; subst. apply (f_equal (@tl _)) in A. cbn [tl] in A. rewrite !answers_trivia in A by assumption. auto. }
  destruct Q as [Q1 Q2]. rewrite (proper_solid r C), (proper_solid r' C') in Q1.
  constructor; auto.
  - rewrite (proper_solid r C), (proper_solid r' C'). exact Q1.
  - destruct r as [|p r], r' as [|p' r']; inversion Q1; subst; [reflexivity|]. cbn [cur_kind]. match goal with H : alike _ _ |- _ => apply H end.
  - destruct r as [|p r], r' as [|p' r']; inversion Q1; subst; auto.
Qed.

Lemma bump_mate before lx lx' k : mate before lx lx' k -> exists l l' k1, lx_bump lx = Ok l /\ lx_bump lx' = Ok l' /\ mate (after before k) l l' k1.
Proof.
  intros (rem & rem' & S & S' & M & E).
  destruct (bump_one _ _ _ S) as (l & r1 & B & S1 & C & D). destruct (bump_one _ _ _ S') as (l' & r1' & B' & S1' & C' & D').
  assert (M1 : mates (after before k) r1 r1').
  { destruct D as [(-> & -> & ->)|(w & tr & -> & T)].
    - destruct rem' as [|p rem']; [|destruct (m_hex _ _ _ M)].
      destruct D' as [(_ & _ & ->)|(w & tr & ? & T)]; [|discriminate]. constructor; [constructor|reflexivity|reflexivity|exact Logic.I].
    - destruct D' as [(-> & _ & ->)|(w' & tr' & -> & T')]; [destruct (m_hex _ _ _ M)|].
      exact (mates_after _ _ _ _ _ _ _ _ T T' C C' M). }
  exists l, l', (cur_kind r1). split; [exact B|]. split; [exact B'|]. exists r1, r1'. split; [exact S1|].
  split; [rewrite (m_first _ _ _ M1); exact S1'|]. auto.
Qed.

(** ** Parser states *)
Record tied (before k : kind) (s s' : pstate) : Prop := {
  y_lex : mate before (ps_lexer s) (ps_lexer s') k;
  y_events : ps_events s' = ps_events s;
  y_steps : ps_steps s' = ps_steps s
}.
Definition tie (s s' : pstate) : Prop := exists before k, tied before k s s'.

Definition outcome_sim {A} (Q : A -> pstate -> A -> pstate -> Prop) (r r' : res (A * pstate)) : Prop :=
  match r, r' with
  | Ok (a, s), Ok (a', s') => Q a s a' s'
  | Panic w, Panic w' => w = w'
  | Fuel, Fuel => True
  | _, _ => False
  end.
Definition agree {A} (a : A) (s : pstate) (a' : A) (s' : pstate) : Prop := a = a' /\ tie s s'.

Definition calls_agree (r r' : forall f, pstate -> res (fn_ret f * pstate)) : Prop :=
  forall f s s', tie s s' -> outcome_sim agree (r f s) (r' f s').
(** [calm P p]: from states related by [P], [p] goes the same way *)
Definition calm (P : pstate -> pstate -> Prop) {A} (Q : A -> pstate -> A -> pstate -> Prop) (p : prog A) : Prop :=
  forall r r', calls_agree r r' -> forall s s', P s s' -> outcome_sim Q (interp r p s) (interp r' p s').
Notation fine p := (calm tie agree p).

Lemma calm_bind {A B} P (Q : A -> pstate -> A -> pstate -> Prop) (R : B -> pstate -> B -> pstate -> Prop) p q :
  calm P Q p -> (forall r r' , calls_agree r r' -> forall a s a' s', Q a s a' s' -> outcome_sim R (interp r (q a) s) (interp r' (q a') s')) ->
  calm P R (pbind p q).
Proof.
  intros Hp Hq r r' C s s' S. rewrite !interp_bind. specialize (Hp r r' C s s' S).
  destruct (interp r p s) as [[a s1]|w|], (interp r' p s') as [[a' s1']|w'|]; cbn [bind outcome_sim] in *; try tauto.
  apply Hq; assumption.
Qed.
Lemma fine_bind {A B} (p : prog A) (q : A -> prog B) : fine p -> (forall a, fine (q a)) -> fine (pbind p q).
Proof. intros Hp Hq. eapply calm_bind; [exact Hp|]. intros r r' C a s a' s' [<- T]. apply Hq; assumption. Qed.
Lemma fine_ret {A} (a : A) : fine (Ret a).
Proof. intros r r' C s s' T. cbn. split; auto. Qed.
Lemma fine_call f : fine (call f).
Proof.
  intros r r' C s s' T. cbn [call interp]. specialize (C f s s' T).
  destruct (r f s) as [[a s1]|w|], (r' f s') as [[a' s1']|w'|]; cbn [bind outcome_sim] in *; tauto.
Qed.
Lemma weaken {A} before k (Q : A -> pstate -> A -> pstate -> Prop) p : calm tie Q p -> calm (tied before k) Q p.
Proof. intros H r r' C s s' T. apply H; [exact C|]. exists before, k. exact T. Qed.

Ltac sides T := let rem := fresh "rem" in let rem' := fresh "rem'" in let S := fresh "S" in let S' := fresh "S'" in
  let M := fresh "M" in let E := fresh "E" in destruct (y_lex _ _ _ _ T) as (rem & rem' & S & S' & M & E).

Lemma tie_push before k s s' e : tied before k s s' -> tied before k (push_event s e) (push_event s' e).
Proof. intros [L E St]. unfold push_event. constructor; cbn [ps_lexer ps_events ps_steps]; congruence || assumption. Qed.

(** looking at the current token *)
Lemma calm_current {A} (Q : A -> pstate -> A -> pstate -> Prop) q : (forall before k, calm (tied before k) Q (q k)) -> calm tie Q (pbind current q).
Proof.
  intros H r r' C s s' (b & k & T). rewrite !interp_bind. cbn [current do_ interp exec bind]. sides T.
  rewrite (cur_side _ _ _ S), (cur_side _ _ _ S'). exact (H b k r r' C s s' T).
Qed.
Lemma calm_current_at {A} before k (Q : A -> pstate -> A -> pstate -> Prop) q : calm (tied before k) Q (q k) -> calm (tied before k) Q (pbind current q).
Proof.
  intros H r r' C s s' T. rewrite !interp_bind. cbn [current do_ interp exec bind]. sides T.
  rewrite (cur_side _ _ _ S), (cur_side _ _ _ S'). exact (H r r' C s s' T).
Qed.
Lemma calm_nth0_at {A} before k (Q : A -> pstate -> A -> pstate -> Prop) q : calm (tied before k) Q (q k) -> calm (tied before k) Q (pbind (nth_ 0) q).
Proof.
  intros H r r' C s s' T. rewrite !interp_bind. cbn [nth_ do_ interp exec bind]. unfold exec_nth.
  rewrite (y_steps _ _ _ _ T). cbn [Nat.leb assert_ bind].
  destruct (ps_steps s <=? 10000); cbn [bind outcome_sim assert_]; auto.
  sides T. cbn [lx_lookahead_nth bind]. rewrite (cur_side _ _ _ S), (cur_side _ _ _ S').
  apply (H r r' C). destruct T as [L E0 St]. constructor; auto.
Qed.
Lemma fine_nth0 : fine (nth_ 0).
Proof.
  intros r r' C s s' (b & k & T). cbn [nth_ do_ interp exec]. unfold exec_nth.
  rewrite (y_steps _ _ _ _ T). cbn [Nat.leb assert_ bind].
  destruct (ps_steps s <=? 10000); cbn [bind outcome_sim assert_]; auto.
  sides T. cbn [lx_lookahead_nth bind outcome_sim]. rewrite (cur_side _ _ _ S), (cur_side _ _ _ S').
  split; [reflexivity|]. exists b, k. destruct T as [L E0 St]. constructor; auto.
Qed.
(** looking ahead *)
Lemma calm_nth1 {A} before k (Q : A -> pstate -> A -> pstate -> Prop) (q : kind -> prog A) (pos : kind -> bool) (y n : prog A) :
  (forall x, q x = if pos x then y else n) ->
  (forall rem rem', mates before rem rem' -> cur_kind rem = k -> pos (next_seen (tl rem)) = pos (next_seen (tl rem'))) ->
  calm (tied before k) Q y -> calm (tied before k) Q n -> calm (tied before k) Q (pbind (nth_ 1) q).
Proof.
  intros Hq Hm Hy Hn r r' C s s' T. rewrite !interp_bind. cbn [nth_ do_ interp exec bind]. unfold exec_nth.
  rewrite (y_steps _ _ _ _ T). cbn [Nat.leb assert_ bind].
  destruct (ps_steps s <=? 10000); cbn [bind outcome_sim assert_]; auto.
  sides T. destruct (look1_side _ _ _ S) as (a & -> & Ka). destruct (look1_side _ _ _ S') as (b & -> & Kb). cbn [bind].
  rewrite Ka, Kb, !Hq, (Hm _ _ M (eq_sym E)).
  assert (T2 : tied before k (PState (ps_lexer s) (ps_events s) (ps_steps s + 1)) (PState (ps_lexer s') (ps_events s') (ps_steps s + 1))).
  { destruct T as [L E0 St]. constructor; auto. }
  destruct (pos _); [apply (Hy r r' C)|apply (Hn r r' C)]; exact T2.
Qed.

Lemma fine_do {B} (c : cmd B) :
  match c with CNth (S _) => False | CCurrentText => False | _ => True end -> fine (do_ c).
Proof.
  intros Hc r r' C s s' (b & k & T). cbn [do_ interp].
  destruct c as [n| | | |k0|msg|m k0|m|c|b0]; try contradiction; cbn [exec].
  - destruct n; [|destruct Hc]. exact (fine_nth0 r r' C s s' (ex_intro _ b (ex_intro _ k T))).
  - sides T. cbn [bind outcome_sim]. rewrite (cur_side _ _ _ S), (cur_side _ _ _ S'). split; [reflexivity|]. exists b, k. exact T.
  - unfold exec_start. cbn [bind outcome_sim]. rewrite (y_events _ _ _ _ T). split; [reflexivity|]. exists b, k. apply tie_push, T.
  - unfold exec_do_bump. destruct (bump_mate _ _ _ _ (y_lex _ _ _ _ T)) as (l & l' & k1 & -> & -> & M). cbn [bind outcome_sim].
    rewrite (y_events _ _ _ _ T), (y_steps _ _ _ _ T). split; [reflexivity|]. exists (after b k), k1. constructor; auto.
  - cbn [bind outcome_sim]. split; [reflexivity|]. exists b, k. apply tie_push, T.
  - unfold exec_complete, with_events. rewrite (y_events _ _ _ _ T), (y_steps _ _ _ _ T).
    destruct (nth_error (ps_events s) m) as [[]|]; cbn [bind outcome_sim]; auto. split; [reflexivity|].
    exists b, k. destruct T. constructor; auto.
  - unfold exec_abandon, with_events. rewrite (y_events _ _ _ _ T), (y_steps _ _ _ _ T). destruct (Nat.eqb _ _); cbn [bind outcome_sim].
    + destruct (nth_error (ps_events s) m) as [[k0 [o|]| | |]|]; cbn [bind outcome_sim]; auto.
      all: destruct k0; cbn [bind outcome_sim]; auto. split; [reflexivity|]. exists b, k. destruct T. constructor; auto.
    + split; [reflexivity|]. exists b, k. destruct T. constructor; auto.
  - unfold exec_precede, exec_start, push_event, with_events. cbn [ps_lexer ps_events ps_steps]. rewrite (y_events _ _ _ _ T), (y_steps _ _ _ _ T).
    destruct (nth_error _ (cm_start c)) as [[k0 o| | |]|]; cbn [bind outcome_sim]; auto.
    destruct (Nat.leb _ _); cbn [bind outcome_sim]; auto. split; [reflexivity|]. exists b, k. destruct T. constructor; auto.
  - destruct (assert_ b0); cbn [bind outcome_sim]; auto. split; [reflexivity|]. exists b, k. destruct T. constructor; auto.
Qed.

(** ** The places where the parser looks ahead *)
Lemma mates_answer before rem rem' : mates before rem rem' -> is_trivia (cur_kind rem) = false ->
  rem = [] /\ rem' = [] \/ exists p r p' r', rem = p :: r /\ rem' = p' :: r' /\ alike p p' /\ answer before p r = answer before p' r'.
Proof.
  intros [P A F H] N. destruct rem as [|p r], rem' as [|p' r']; try contradiction; [auto|]. right.
  exists p, r, p', r'. cbn [cur_kind] in *. split; [reflexivity|]. split; [reflexivity|]. split; [apply H, N|].
  cbn [answers] in A. rewrite <- F, N in A. injection A. unfold answer. rewrite <- F. congruence.
Qed.
Lemma ask_brace before rem rem' : mates before rem rem' -> cur_kind rem = IDENT ->
  kind_eqb (next_seen (tl rem)) L_BRACE = kind_eqb (next_seen (tl rem')) L_BRACE.
Proof.
  intros M K. destruct (mates_answer _ _ _ M) as [[-> ->]|(p & r & p' & r' & -> & -> & [E _] & A)]; [rewrite K; reflexivity|reflexivity|].
  cbn [cur_kind tl] in *. unfold answer in A. rewrite <- E, K in A. exact (f_equal (fun x => fst (fst (fst x))) A).
Qed.
Lemma ask_colon before rem rem' : mates before rem rem' -> cur_kind rem = IDENT \/ cur_kind rem = INTEGER_NUMBER ->
  kind_eqb (next_seen (tl rem)) COLON = kind_eqb (next_seen (tl rem')) COLON.
Proof.
  intros M K. destruct (mates_answer _ _ _ M) as [[-> ->]|(p & r & p' & r' & -> & -> & [E _] & A)]; [destruct K as [K|K]; rewrite K; reflexivity|reflexivity|].
  cbn [cur_kind tl] in *. unfold answer in A. rewrite <- E in A. destruct K as [K|K]; rewrite K in A; exact (f_equal (fun x => snd (fst (fst x))) A).
Qed.
Lemma ask_colons rem rem' : mates MODULE_KW rem rem' -> is_trivia (cur_kind rem) = false ->
  kind_eqb (next_seen (tl rem)) COLON_COLON = kind_eqb (next_seen (tl rem')) COLON_COLON.
Proof.
  intros M K. destruct (mates_answer _ _ _ M K) as [[-> ->]|(p & r & p' & r' & -> & -> & [E _] & A)]; [reflexivity|].
  cbn [cur_kind tl] in *. unfold answer in A. exact (f_equal (fun x => snd (fst x)) A).
Qed.
Definition use_tree (k : kind) : bool := kind_eqb k STAR || kind_eqb k L_BRACE.
Lemma ask_use_tree before rem rem' : mates before rem rem' -> cur_kind rem = COLON_COLON ->
  use_tree (second_raw (tl rem)) = use_tree (second_raw (tl rem')).
Proof.
  intros M K. destruct (mates_answer _ _ _ M) as [[-> ->]|(p & r & p' & r' & -> & -> & [E _] & A)]; [rewrite K; reflexivity|reflexivity|].
  cbn [cur_kind tl] in *. unfold answer in A. rewrite <- E, K in A. exact (f_equal snd A).
Qed.

Lemma fine_address : fine bump_address.
Proof.
  unfold bump_address. apply calm_current. intros b k. destruct (kind_eqb k IDENT) eqn:K.
  - apply weaken. apply fine_bind; [|intros; apply fine_ret].
    unfold bump, assert_p, eat, at_, nth_at, do_bump.
    apply fine_bind; [|intros; apply fine_do; exact Logic.I]. apply fine_bind; [apply fine_bind; [apply fine_nth0|intros; apply fine_ret]|].
    intros []; [apply fine_bind; [apply fine_do; exact Logic.I|intros]|]; apply fine_ret.
  - eapply calm_bind with (Q := agree).
    + destruct (kind_eqb k INTEGER_NUMBER) eqn:K2; [|apply weaken, fine_ret].
      intros r r' C s s' T. rewrite !interp_bind. cbn [current_text do_ interp exec]. sides T.
      rewrite (text_side _ _ _ S), (text_side _ _ _ S'). cbn [bind interp outcome_sim]. split; [|exists b, k; exact T].
      apply kind_eqb_eq in K2.
      destruct (mates_answer _ _ _ M) as [[-> ->]|(p & q & p' & q' & -> & -> & A & _)]; [rewrite <- E, K2; reflexivity|reflexivity|].
      apply alike_hex, A.
    + intros r r' C a s a' s' [<- T]. destruct a; [|split; auto].
      assert (G : fine (bump_remap DIEM_ADDRESS ;; Ret true)).
      { apply fine_bind; [|intros; apply fine_ret]. unfold bump_remap. apply fine_bind; [apply fine_nth0|]. intros k0.
        destruct (kind_eqb k0 EOF); [apply fine_ret|apply fine_do; exact Logic.I]. }
      exact (G r r' C s s' T).
Qed.

Lemma calm_bump k0 : is_trivia k0 = false -> calm tie (fun _ s _ s' => exists k, tied k0 k s s' /\ is_trivia k = false) (bump k0).
Proof.
  intros N r r' C s s' (b & k & T). unfold bump, assert_p, eat, at_, nth_at, do_bump.
  cbn [pbind nth_ do_ interp exec]. unfold exec_nth. rewrite (y_steps _ _ _ _ T). cbn [Nat.leb assert_ bind].
  destruct (ps_steps s <=? 10000); cbn [bind outcome_sim assert_]; auto.
  sides T. cbn [lx_lookahead_nth bind]. rewrite (cur_side _ _ _ S), (cur_side _ _ _ S').
  destruct (kind_eqb k k0) eqn:K; cbn [pbind interp exec do_ assert_ bind outcome_sim]; [|reflexivity].
  apply kind_eqb_eq in K. unfold exec_do_bump. cbn [ps_lexer ps_events ps_steps].
  destruct (bump_mate _ _ _ _ (y_lex _ _ _ _ T)) as (l & l' & k1 & B & B' & M1). rewrite B, B'. cbn [bind assert_ outcome_sim].
  exists k1. unfold after in M1. rewrite K, N in M1. split.
  - constructor; cbn [ps_lexer ps_events ps_steps]; auto. rewrite (y_events _ _ _ _ T). reflexivity.
  - destruct (bump_one _ _ _ S) as (l2 & r1 & B2 & S1 & C1 & _). rewrite B in B2. injection B2 as <-.
    destruct M1 as (r2 & r2' & S2 & _ & _ & E2). rewrite <- (cur_side _ _ _ S2), (cur_side _ _ _ S1). exact C1.
Qed.

Ltac fl := lazymatch goal with
  | |- fine bump_address => apply fine_address
  | |- fine (pbind _ _) => apply fine_bind; [fl | intro; fl]
  | |- fine (Ret _) => apply fine_ret
  | |- fine (do_ _) => apply fine_do; exact Logic.I
  | |- fine (call ?f) => exact (fine_call f)
  | |- fine (match ?x with _ => _ end) => destruct x; fl
  | |- fine (let '_ := ?x in _) => destruct x; fl
  | |- calm _ _ ?p => let p' := eval red in p in change (fine p'); cbv beta; fl
  end.

Lemma fine_record_pat_field : fine record_pat_field.
Proof.
  unfold record_pat_field. apply fine_bind; [fl|]. intros m. apply calm_current. intros b k.
  eapply calm_bind with (Q := agree).
  - destruct (kind_eqb k IDENT) eqn:K; [|apply weaken, fine_ret]. apply kind_eqb_eq in K.
    apply calm_nth1 with (pos := fun x => kind_eqb x COLON) (y := Ret true) (n := Ret false); try (apply weaken, fine_ret).
    + intros x. destruct (kind_eqb x COLON); reflexivity.
    + intros rem rem' M E. eapply ask_colon; [exact M|left; congruence].
  - intros r r' C a s a' s' [<- T].
    assert (G : fine ((if a then name_ref ;; bump COLON ;; pattern else ident_pat) ;; complete m RECORD_PAT_FIELD ;; Ret tt)) by fl.
    exact (G r r' C s s' T).
Qed.
Lemma fine_pattern : fine pattern_body.
Proof.
  unfold pattern_body. apply calm_current. intros b k.
  destruct (kind_eqb k MUT_KW); [apply weaken; fl|]. destruct (kind_eqb k IDENT) eqn:K; [|apply weaken; fl].
  apply kind_eqb_eq in K.
  apply calm_nth1 with (pos := fun x => kind_eqb x L_BRACE) (y := path_pat) (n := ident_pat); [reflexivity| |apply weaken; fl|apply weaken; fl].
  intros rem rem' M E. eapply ask_brace; [exact M|congruence].
Qed.
Lemma fine_record_expr_fields : fine record_expr_fields_body.
Proof.
  unfold record_expr_fields_body. apply fine_bind; [fl|]. intros w. destruct (negb w); [fl|].
  apply fine_bind; [fl|]. intros m. apply calm_current. intros b k.
  eapply calm_bind with (Q := agree).
  - destruct (kind_eqb k IDENT || kind_eqb k INTEGER_NUMBER) eqn:K; [|apply weaken; fl].
    eapply calm_bind with (Q := agree).
    + unfold nth_at.
      apply calm_nth1 with (pos := fun x => kind_eqb x COLON) (y := Ret true) (n := Ret false); try (apply weaken, fine_ret).
      * intros x. destruct (kind_eqb x COLON); reflexivity.
      * intros rem rem' M E. eapply ask_colon; [exact M|].
        apply orb_true_iff in K as [K|K]; apply kind_eqb_eq in K; [left|right]; congruence.
    + intros r r' C a s a' s' [<- T].
      assert (G : fine ((if a then name_ref ;; expect COLON ;; Ret tt else Ret tt) ;; expr ;; complete m RECORD_EXPR_FIELD ;; Ret tt)) by fl.
      exact (G r r' C s s' T).
  - intros r r' C a s a' s' [<- T].
    assert (G : fine (a0 <- at_ R_BRACE ;; (if negb a0 then expect COMMA ;; Ret tt else Ret tt) ;; call F_record_expr_fields)) by fl.
    exact (G r r' C s s' T).
Qed.
Lemma fine_module : fine module.
Proof.
  unfold module. apply fine_bind; [fl|]. intros m. apply fine_bind; [fl|]. intros _.
  eapply calm_bind; [apply (calm_bump MODULE_KW); reflexivity|].
  intros r r' C a s a' s' (k & T & N).
  assert (G : calm (tied MODULE_KW k) agree (n <- nth_at 1 COLON_COLON ;;
    (if n then address_ident_r [COLON_COLON] ;; bump COLON_COLON else Ret tt) ;;
    name ;; a <- at_ L_BRACE ;;
    (if a then item_list else e <- eat SEMICOLON ;; if negb e then error (`"expected `;` or `{`") else Ret tt) ;;
    complete m MODULE_DEF ;; Ret tt)).
  { eapply calm_bind with (Q := agree).
    - unfold nth_at.
      apply calm_nth1 with (pos := fun x => kind_eqb x COLON_COLON) (y := Ret true) (n := Ret false); try (apply weaken, fine_ret).
      + intros x. destruct (kind_eqb x COLON_COLON); reflexivity.
      + intros rem rem' M E. apply ask_colons; [exact M|]. rewrite E. exact N.
    - clear. intros r r' C n s n' s' [<- T].
      assert (G : fine ((if n then address_ident_r [COLON_COLON] ;; bump COLON_COLON else Ret tt) ;;
        name ;; a <- at_ L_BRACE ;;
        (if a then item_list else e <- eat SEMICOLON ;; if negb e then error (`"expected `;` or `{`") else Ret tt) ;;
        complete m MODULE_DEF ;; Ret tt)) by fl.
      exact (G r r' C s s' T). }
  exact (G r r' C s s' T).
Qed.
Lemma fine_qualifier q : fine (path_for_qualifier_body q).
Proof.
  intros r r' C s s' (b & k & T). unfold path_for_qualifier_body. rewrite !interp_bind. cbn [nth_ do_ interp exec bind]. unfold exec_nth.
  rewrite (y_steps _ _ _ _ T). cbn [Nat.leb assert_ bind].
  destruct (ps_steps s <=? 10000); cbn [bind outcome_sim assert_]; auto.
  sides T. destruct (look2_side _ _ _ S) as (t1 & -> & K1). destruct (look2_side _ _ _ S') as (t2 & -> & K2). cbn [bind].
  rewrite K1, K2. cbv zeta. fold (use_tree (second_raw (tl rem))) (use_tree (second_raw (tl rem'))).
  set (s1 := PState (ps_lexer s) _ _). set (s1' := PState (ps_lexer s') _ _).
  assert (T1 : tied b k s1 s1') by (destruct T as [L E0 St]; constructor; auto).
  rewrite !interp_bind. unfold at_, nth_at. rewrite !interp_bind. cbn [nth_ do_ interp exec bind]. unfold exec_nth.
  rewrite (y_steps _ _ _ _ T1). cbn [Nat.leb assert_ bind].
  destruct (ps_steps s1 <=? 10000); cbn [bind outcome_sim assert_]; auto.
  cbn [lx_lookahead_nth bind]. subst s1 s1'. cbn [ps_lexer ps_events ps_steps] in *.
  rewrite (cur_side _ _ _ S), (cur_side _ _ _ S').
  match goal with |- context [interp r _ ?x] => set (s2 := x) end. match goal with |- context [interp r' _ ?x] => set (s2' := x) end.
  assert (T2 : tie s2 s2') by (exists b, k; destruct T as [L E0 St]; constructor; auto).
  destruct (kind_eqb k COLON_COLON) eqn:K; cbn [andb].
  - apply kind_eqb_eq in K. rewrite <- (ask_use_tree _ _ _ M) by congruence.
    destruct (use_tree _); cbn [negb]; [exact (fine_ret tt r r' C _ _ T2)|].
    assert (G : fine (path <- precede q ;; bump COLON_COLON ;; path_segment false ;; path <- complete path PATH ;; call (F_path_for_qualifier path))) by fl.
    exact (G r r' C s2 s2' T2).
  - exact (fine_ret tt r r' C _ _ T2).
Qed.

Ltac fs := lazymatch goal with
  | |- fine (path_for_qualifier_body _) => apply fine_qualifier
  | |- fine module => apply fine_module
  | |- fine record_expr_fields_body => apply fine_record_expr_fields
  | |- fine pattern_body => apply fine_pattern
  | |- fine record_pat_field => apply fine_record_pat_field
  | |- fine bump_address => apply fine_address
  | |- fine (pbind _ _) => apply fine_bind; [fs | intro; fs]
  | |- fine (Ret _) => apply fine_ret
  | |- fine (do_ _) => apply fine_do; exact Logic.I
  | |- fine (call ?f) => exact (fine_call f)
  | |- fine (match ?x with _ => _ end) => destruct x; fs
  | |- fine (let '_ := ?x in _) => destruct x; fs
  | |- calm _ _ ?p => let p' := eval red in p in change (fine p'); cbv beta; fs
  end.
Lemma fine_body f : fine (body f).
Proof. destruct f; cbn [body]; fs. Qed.
Lemma fine_root : fine root.
Proof. fs. Qed.

Lemma run_agree n : calls_agree (run n) (run n).
Proof.
  induction n as [|n IH]; intros f s s' T; [exact Logic.I|]. cbn [run]. apply fine_body; assumption.
Qed.

(** ** The parser *)
Lemma cur_first ws : cur_kind ws = first_kind ws.
Proof. destruct ws; reflexivity. Qed.
Lemma mates_start ws ws' : aleq (proper ws) (proper ws') -> answers TOMBSTONE ws = answers TOMBSTONE ws' -> begin_alike ws ws' ->
  mates TOMBSTONE ws ws'.
Proof.
  intros P A B.
  assert (F : cur_kind ws = cur_kind ws' /\
    match ws, ws' with p :: _, q :: _ => is_trivia (fst p) = false -> alike p q | [], [] => True | _, _ => False end).
  { unfold begin_alike in B. rewrite <- (cur_first ws), <- (cur_first ws') in B. destruct (is_trivia (cur_kind ws)) eqn:T.
    - assert (E := B (or_introl eq_refl)). split; [exact E|].
      destruct ws as [|p r], ws' as [|p' r']; cbn [cur_kind] in *; try exact Logic.I; try (rewrite E in T; discriminate T); try discriminate T.
      intros X. congruence.
    - destruct (is_trivia (cur_kind ws')) eqn:T'.
      + assert (E := B (or_intror eq_refl)). congruence.
      + rewrite (proper_solid ws T), (proper_solid ws' T') in P.
        destruct ws as [|p r], ws' as [|p' r']; inversion P; subst; [split; [reflexivity|exact Logic.I]|].
        match goal with H : alike _ _ |- _ => split; [apply H|auto] end. }
  destruct F as [F1 F2]. constructor; auto.
Qed.

Lemma parser_alike t t' ws ws' : steps t ws [] -> steps t' ws' [] -> Forall real ws -> Forall real ws' ->
  aleq (proper ws) (proper ws') -> answers TOMBSTONE ws = answers TOMBSTONE ws' -> begin_alike ws ws' ->
  exists lx lx', lexer_new t = Ok lx /\ lexer_new t' = Ok lx' /\
  match parse_with_lexer lx, parse_with_lexer lx' with
  | Ok (evs, toks), Ok (evs', toks') => evs = evs' /\ (exists f gs, parsed t evs toks f gs) /\
      (exists f gs, parsed t' evs' toks' f gs)
  | Panic w, Panic w' => w = w'
  | _, _ => False
  end.
Proof.
  intros S S' R R' A1 A2 A3. pose proof (mates_start _ _ A1 A2 A3) as M.
  assert (X : exists lx lx', lexer_new t = Ok lx /\ lexer_new t' = Ok lx' /\ tie (parser_new lx) (parser_new lx')).
  { destruct (steps_find _ _ S) as (len & F). destruct (steps_find _ _ S') as (len' & F').
    unfold lexer_new. rewrite F, F'. cbn [bind]. eexists _, _. split; [reflexivity|]. split; [reflexivity|].
    exists TOMBSTONE, (cur_kind ws). constructor; cbn [parser_new ps_lexer ps_events ps_steps]; auto.
    exists ws, ws'. rewrite (m_first _ _ _ M). split; [|split; [|split; [exact M|reflexivity]]].
    - constructor; [|exact R]. exists t, [], t, len. rewrite <- (m_first _ _ _ M). split; [|exact S]. constructor; auto; constructor.
    - constructor; [|exact R']. exists t', [], t', len'. split; [|exact S']. constructor; auto; constructor. }
  destruct X as (lx & lx' & N & N' & P).
  exists lx, lx'. split; [exact N|]. split; [exact N'|].
  pose proof (parse_ends t lx N) as E. pose proof (parse_ends t' lx' N') as E'.
  pose proof (grammar_sound t lx (parse_fuel (lx_text lx)) N) as G.
  pose proof (grammar_sound t' lx' (parse_fuel (lx_text lx')) N') as G'.
  unfold parse_with_lexer in *.
  set (n := parse_fuel (lx_text lx)) in *. set (n' := parse_fuel (lx_text lx')) in *.
  assert (M1 : interp (run (n + n')) root (parser_new lx) = interp (run n) root (parser_new lx)).
  { apply interp_more; [|intros X; apply E; rewrite X; reflexivity].
    intros f s X. apply run_more; [lia|exact X]. }
  assert (M2 : interp (run (n + n')) root (parser_new lx') = interp (run n') root (parser_new lx')).
  { apply interp_more; [|intros X; apply E'; rewrite X; reflexivity].
    intros f s X. apply run_more; [lia|exact X]. }
  pose proof (fine_root _ _ (run_agree (n + n')) _ _ P) as Q.
  rewrite M1, M2 in Q.
  destruct (interp (run n) root (parser_new lx)) as [[u s]| |], (interp (run n') root (parser_new lx')) as [[u' s']| |];
    cbn [bind outcome_sim] in *; try tauto.
  destruct Q as [_ (b & k & Q)]. rewrite (y_events _ _ _ _ Q). rewrite (y_events _ _ _ _ Q) in G'. auto.
Qed.

(** ** Where the messages go *)
Definition solid_tok (x : token) : bool := negb (is_trivia (t_kind x)).
Definition nt (toks : list token) (i : nat) : nat := length (filter solid_tok (firstn i toks)).
Definition past (toks : list token) (i : nat) : nat := i + count_trivias (skipn i toks).

Lemma nt_next toks i x : nth_error toks i = Some x -> nt toks (i + 1) = (nt toks i + if solid_tok x then 1 else 0)%nat.
Proof.
  intros H. unfold nt. rewrite firstn_plus, filter_app, app_length, (nth_skipn _ _ _ H). cbn [firstn filter].
  destruct (solid_tok x); reflexivity.
Qed.
Lemma nt_count toks i : nt toks (past toks i) = nt toks i.
Proof.
  unfold past, nt. rewrite firstn_plus, filter_app, app_length.
  assert (E : filter solid_tok (firstn (count_trivias (skipn i toks)) (skipn i toks)) = []).
  { generalize (skipn i toks) as l. induction l as [|x l IH]; [reflexivity|]. cbn [count_trivias].
    destruct (is_trivia (t_kind x)) eqn:T; [|reflexivity]. cbn [firstn filter]. unfold solid_tok at 1. rewrite T. exact IH. }
  rewrite E. apply Nat.add_0_r.
Qed.
Lemma past_solid toks i x : nth_error toks (past toks i) = Some x -> solid_tok x = true.
Proof.
  unfold past. assert (E : forall l n, nth_error (skipn n l : list token) (count_trivias (skipn n l)) = nth_error l (n + count_trivias (skipn n l))).
  { intros l n. generalize (count_trivias (skipn n l)) as m. revert n. induction l as [|y l IH]; intros [|n] m; cbn [skipn Nat.add nth_error]; auto.
    destruct m; reflexivity. }
  rewrite <- E. generalize (skipn i toks) as l. induction l as [|y l IH]; [destruct (count_trivias []); discriminate|].
  cbn [count_trivias]. destruct (is_trivia (t_kind y)) eqn:T; cbn [nth_error]; [exact IH|]. intros H. injection H as <-. unfold solid_tok. rewrite T. reflexivity.
Qed.
Lemma past_zero toks : past toks 0 = 0%nat <-> match toks with [] => True | x :: _ => solid_tok x = true end.
Proof.
  unfold past, solid_tok. cbn [skipn Nat.add]. destruct toks as [|x r]; [split; reflexivity|]. cbn [count_trivias].
  destruct (is_trivia (t_kind x)); split; intros H; auto; discriminate.
Qed.

Section OneSide.
  Variables (t : text) (toks : list token).
  Record at_pos (s : sink) (i : nat) (st : sink_state) (errs : list syntax_error) : Prop := {
    ap_pos : sk_token_pos s = i;
    ap_off : sk_text_pos s = toff toks i;
    ap_state : sk_state s = st;
    ap_errs : sk_errors s = errs
  }.
  Lemma do_token_at s k n len i st errs s1 : at_pos s i st errs -> toff toks (i + n) = toff toks i + len ->
    do_token t s k len n = Ok s1 -> at_pos s1 (i + n) st errs.
  Proof.
    intros [] L H. unfold do_token in *.
    apply bind_ok in H as (e & H1 & H). apply bind_ok in H as (x & _ & H). apply bind_ok in H as (y & _ & H).
    injection H as <-. unfold u32_add in H1. destruct (_ <? _) in H1; [|discriminate]. injection H1 as <-.
    constructor; cbn [sk_token_pos sk_text_pos sk_state sk_errors]; congruence.
  Qed.
  Lemma eat_at : forall rest s i st errs s1, at_pos s i st errs -> rest = skipn i toks ->
    eat_trivias_from t rest s = Ok s1 -> at_pos s1 (i + count_trivias rest) st errs.
  Proof.
    induction rest as [|x rest IH]; intros s i st errs s1 A E H; cbn [eat_trivias_from count_trivias] in *.
    - injection H as <-. rewrite Nat.add_0_r. exact A.
    - destruct (is_trivia (t_kind x)); [|injection H as <-; rewrite Nat.add_0_r; exact A].
      apply bind_ok in H as (s2 & H2 & H).
      assert (N : nth_error toks i = Some x).
      { clear - E. revert E. revert i. generalize toks as l.
        induction l as [|y l IH]; intros [|i] E; cbn [skipn nth_error] in *; try discriminate; [congruence|auto]. }
      pose proof (do_token_at _ _ _ _ _ _ _ _ A (toff_next _ _ _ N) H2) as A2.
      rewrite (nth_skipn _ _ _ N) in E. injection E as E.
      replace (i + S (count_trivias rest))%nat with (i + 1 + count_trivias rest)%nat by lia.
      eapply IH; [exact A2| |exact H]. rewrite Nat.add_1_r. exact E.
  Qed.
  Lemma eat_n_at : forall n s i st errs s1, at_pos s i st errs -> eat_n_trivias t toks n s = Ok s1 -> at_pos s1 (i + n) st errs.
  Proof.
    induction n as [|n IH]; intros s i st errs s1 A H; cbn [eat_n_trivias] in *.
    - injection H as <-. rewrite Nat.add_0_r. exact A.
    - apply bind_ok in H as (x & N & H). apply bind_ok in H as (? & _ & H). apply bind_ok in H as (s2 & H2 & H).
      rewrite (ap_pos _ _ _ _ A) in N.
      assert (M : nth_error toks i = Some x) by (destruct (nth_error toks _); [injection N as <-; reflexivity|discriminate]).
      pose proof (do_token_at _ _ _ _ _ _ _ _ A (toff_next _ _ _ M) H2) as A2.
      replace (i + S n)%nat with (i + 1 + n)%nat by lia. eapply IH; eauto.
  Qed.
  Lemma flush_at s i st errs s1 : at_pos s i st errs -> flush s = Ok s1 -> at_pos s1 i Normal errs.
  Proof.
    intros [] H. unfold flush in H. destruct (sk_state s).
    - injection H as <-. constructor; auto.
    - injection H as <-. constructor; auto.
    - apply bind_ok in H as (b & _ & H). injection H as <-. constructor; auto.
  Qed.
  (** one call, seen from outside *)
  Definition moves (c : sink_call) (i : nat) (st : sink_state) : nat * sink_state :=
    match c with
    | SStart _ => match st with PendingStart => (i, Normal) | _ => (past toks i, Normal) end
    | SFinish => (i, PendingFinish)
    | SToken _ n => ((if Nat.eqb i 0 then i else past toks i) + n, Normal)%nat
    | SError _ => (i, st)
    end.
  Definition says (c : sink_call) (i : nat) : list syntax_error :=
    match c with SError m => [SyntaxError m (toff toks i)] | _ => [] end.
  Lemma call_at c s i st errs s1 : at_pos s i st errs -> sink_call1 t toks s c = Ok s1 ->
    at_pos s1 (fst (moves c i st)) (snd (moves c i st)) (errs ++ says c i) /\
    (forall k, c = SToken k 1 -> exists x, nth_error toks (if Nat.eqb i 0 then i else past toks i) = Some x).
  Proof.
    intros A H. destruct c as [k| |k n|msg]; cbn [sink_call1 moves says] in *; rewrite ?app_nil_r.
    - split; [|discriminate]. unfold sink_start_node in H. rewrite (ap_state _ _ _ _ A) in H.
      assert (G : (let! s0 := flush s in
        let! _ := (if Nat.leb (sk_token_pos s0) (length toks) then Ok tt else Panic PIndex) in
        let! s2 := eat_n_trivias t toks (count_trivias (skipn (sk_token_pos s0) toks)) s0 in
        Ok (with_inner s2 (b_start (sk_inner s2) k))) = Ok s1 -> at_pos s1 (past toks i) Normal errs).
      { clear H. intros H. apply bind_ok in H as (s2 & F & H). pose proof (flush_at _ _ _ _ _ A F) as A2.
        apply bind_ok in H as (? & _ & H). apply bind_ok in H as (s3 & E & H). injection H as <-.
        rewrite (ap_pos _ _ _ _ A2) in E. destruct (eat_n_at _ _ _ _ _ _ A2 E). constructor; auto. }
      destruct st; [|exact (G H)..]. injection H as <-. destruct A. constructor; auto.
    - split; [|discriminate]. unfold sink_finish_node in H. destruct A. destruct (sk_state s); [discriminate| |].
      + injection H as <-. constructor; auto.
      + apply bind_ok in H as (b & _ & H). injection H as <-. constructor; auto.
    - unfold sink_token in H. destruct (sk_state s) eqn:Es; [discriminate| |].
      all: apply bind_ok in H as (s2 & F & H); pose proof (flush_at _ _ _ _ _ A F) as A2;
        apply bind_ok in H as (s3 & E & H);
        assert (A3 : at_pos s3 (if Nat.eqb i 0 then i else past toks i) Normal errs) by
          (rewrite (ap_pos _ _ _ _ A2) in E; destruct (Nat.eqb i 0); [injection E as <-; exact A2|];
           unfold eat_trivias in E; rewrite (ap_pos _ _ _ _ A2) in E; exact (eat_at _ _ _ _ _ _ A2 eq_refl E));
        apply bind_ok in H as (? & Le & H); apply bind_ok in H as (len & L & H);
        rewrite (ap_pos _ _ _ _ A3) in L, Le; apply sum_len_val in L;
        subst len; (split; [eapply do_token_at; [exact A3|apply toff_plus|exact H]|]);
        intros k0 Ek; injection Ek as _ ->;
        destruct (nth_error toks _) eqn:Ne; [eauto|]; apply nth_error_None in Ne;
        destruct (Nat.leb _ _) eqn:Lb in Le; [apply Nat.leb_le in Lb; exfalso; lia|discriminate].
    - split; [|discriminate]. injection H as <-. destruct A as [A1 A2 A3 A4]. unfold sink_error.
      constructor; cbn [fst snd sk_token_pos sk_text_pos sk_state sk_errors]; auto. rewrite A4, A2. reflexivity.
  Qed.
End OneSide.

Section TwoSides.
  Variables t t' : text.
  Variables toks toks' : list token.
  Hypothesis first : match toks, toks' with x :: _, y :: _ => solid_tok x = solid_tok y | _, _ => False end.

  Definition level (i i' : nat) : Prop := (i = 0 <-> i' = 0)%nat /\ nt toks i = nt toks' i'.
  Lemma past_mono l i : (i <= past l i)%nat.
  Proof. unfold past. lia. Qed.
  Lemma level_past i i' : level i i' -> level (past toks i) (past toks' i').
  Proof.
    intros [Z C]. split; [|rewrite !nt_count; exact C].
    pose proof (past_mono toks i). pose proof (past_mono toks' i').
    destruct (Nat.eq_dec i 0) as [E|E].
    - assert (E' : i' = 0%nat) by tauto. subst. rewrite !past_zero. destruct toks, toks'; try contradiction. rewrite first. reflexivity.
    - assert (i' <> 0%nat) by tauto. lia.
  Qed.
  Lemma level_token i i' x x' : level i i' ->
    nth_error toks (if Nat.eqb i 0 then i else past toks i) = Some x -> nth_error toks' (if Nat.eqb i' 0 then i' else past toks' i') = Some x' ->
    level ((if Nat.eqb i 0 then i else past toks i) + 1) ((if Nat.eqb i' 0 then i' else past toks' i') + 1).
  Proof.
    intros L H H'. assert (Q : solid_tok x = solid_tok x').
    { destruct L as [Z _]. destruct (Nat.eqb i 0) eqn:E.
      - apply Nat.eqb_eq in E. assert (E' : i' = 0%nat) by tauto. subst. cbn [Nat.eqb nth_error] in *.
        destruct toks as [|y l], toks' as [|y' l']; try discriminate. injection H as <-. injection H' as <-. exact first.
      - apply Nat.eqb_neq in E. assert (E' : i' <> 0%nat) by tauto. apply Nat.eqb_neq in E'. rewrite E' in H'.
        rewrite (past_solid _ _ _ H), (past_solid _ _ _ H'). reflexivity. }
    split; [lia|]. rewrite (nt_next _ _ _ H), (nt_next _ _ _ H'), Q. f_equal.
    destruct L as [Z C]. destruct (Nat.eqb i 0), (Nat.eqb i' 0); rewrite ?nt_count; exact C.
  Qed.

  Definition eplace (e e' : syntax_error) : Prop :=
    se_msg e = se_msg e' /\ exists i i', se_pos e = toff toks i /\ se_pos e' = toff toks' i' /\ nt toks i = nt toks' i'.
  Definition single (c : sink_call) : Prop := match c with SToken _ n => n = 1%nat | _ => True end.

  Lemma calls_level cs : Forall single cs -> forall s s' i i' st errs errs' s1 s1',
    at_pos toks s i st errs -> at_pos toks' s' i' st errs' -> level i i' -> Forall2 eplace errs errs' ->
    sink_run t toks s cs = Ok s1 -> sink_run t' toks' s' cs = Ok s1' -> Forall2 eplace (sk_errors s1) (sk_errors s1').
  Proof.
    induction 1 as [|c cs Hc Hs IH]; intros s s' i i' st errs errs' s1 s1' A A' L F H H'; cbn [sink_run] in *.
    - injection H as <-. injection H' as <-. rewrite (ap_errs _ _ _ _ _ A), (ap_errs _ _ _ _ _ A'). exact F.
    - apply bind_ok in H as (s2 & C & H). apply bind_ok in H' as (s2' & C' & H').
      destruct (call_at _ _ _ _ _ _ _ _ A C) as [A2 X]. destruct (call_at _ _ _ _ _ _ _ _ A' C') as [A2' X'].
      assert (E : snd (moves toks c i st) = snd (moves toks' c i' st)) by (destruct c; [destruct st|..]; reflexivity).
      rewrite <- E in A2'. eapply IH; [exact A2|exact A2'| | |exact H|exact H'].
      + destruct c as [k| |k n|m]; cbn [moves fst] in *; [destruct st; [exact L|apply level_past, L..]|exact L| |exact L].
        cbn in Hc. subst n. destruct (X k eq_refl) as [x Hx]. destruct (X' k eq_refl) as [x' Hx']. eapply level_token; eauto.
      + apply Forall2_app; [exact F|]. destruct c as [k| |k n|m]; cbn [says]; constructor; [|constructor].
        split; [reflexivity|]. exists i, i'. cbn [se_pos]. destruct L. auto.
  Qed.
End TwoSides.

Lemma flat_single f : Forall single (flat f).
Proof.
  assert (G : forall x, Forall single (flat1 x)).
  { fix IH 1. intros [k cs|k|m]; cbn [flat1].
    - constructor; [exact Logic.I|]. apply Forall_app. split; [|repeat constructor].
      induction cs as [|c cs IHc]; [constructor|]. cbn [flat_map]. apply Forall_app. split; [apply IH|exact IHc].
    - repeat constructor.
    - repeat constructor. }
  unfold flat. induction f as [|x f IH]; [constructor|]. cbn [flat_map]. apply Forall_app. auto.
Qed.

Lemma nt_proper ws i :
  nt (map tok_of ws ++ [token_new EOF 0]) i =
  (length (proper (firstn i ws)) + (if Nat.leb i (length ws) then 0 else 1))%nat.
Proof.
  unfold nt. revert i. induction ws as [|p ws IH]; intros i.
  - destruct i as [|i]; [reflexivity|]. cbn [map app firstn]. rewrite firstn_nil. reflexivity.
  - destruct i as [|i]; [reflexivity|]. cbn [map app firstn filter proper length Nat.leb].
    fold (proper (firstn i ws)). change (solid_tok (tok_of p)) with (negb (is_trivia (fst p))).
    specialize (IH i). cbn [map app] in IH.
    destruct (is_trivia (fst p)); cbn [negb length]; rewrite IH; reflexivity.
Qed.

Lemma layout_main t t' ws ws' : tlen t < u32_bound -> tlen t' < u32_bound ->
  token_stream t ws -> token_stream t' ws' -> ascii_literals ws -> ascii_literals ws' ->
  aleq (proper ws) (proper ws') -> answers TOMBSTONE ws = answers TOMBSTONE ws' -> begin_alike ws ws' ->
  same_reading ws ws' (parse_text t) (parse_text t').
Proof.
  intros Hs Hs' T T' A A' K1 K2 K3.
  destruct (stream_steps' _ _ T A) as [S R]. destruct (stream_steps' _ _ T' A') as [S' R'].
  destruct (parser_alike _ _ _ _ S S' R R' K1 K2 K3) as (lx & lx' & N & N' & P).
  unfold parse_text. rewrite N, N'. cbn [bind].
  destruct (parse_with_lexer lx) as [[evs toks]|w|], (parse_with_lexer lx') as [[evs' toks']|w'|]; try contradiction; [|exact P].
  destruct P as (<- & (f & gs & P) & (f' & gs' & P')). cbn [bind].
  pose proof (den_inj _ _ _ (p_den _ _ _ _ _ P) (p_den _ _ _ _ _ P')) as X. injection X as <-.
  destruct (build_ok _ _ _ _ _ Hs P) as (g & errs & B & O).
  destruct (build_ok _ _ _ _ _ Hs' P') as (g' & errs' & B' & O').
  rewrite B, B'. cbn [same_reading]. split.
  - destruct (ro_root _ _ _ _ _ O) as (cs & -> & E). destruct (ro_root _ _ _ _ _ O') as (cs' & -> & E').
    cbn [strip]. rewrite E, E'. reflexivity.
  - assert (U : forall t ws gs, steps t ws [] -> Forall real ws -> steps t (ungroup gs) [] -> Forall group_ok gs -> ungroup gs = ws).
    { clear. intros t ws gs S R S' G. destruct (steps_split _ _ _ S' _ S) as (r & E & Sr).
      - eapply Forall_impl; [|apply ungroup_no_eof; exact G]. auto.
      - destruct (steps_nil_pieces _ _ Sr) as [_ F]. destruct r as [|q r]; [rewrite app_nil_r in E; auto|].
        exfalso. rewrite E in R. apply Forall_app in R as [_ R]. inversion R; inversion F; subst.
        match goal with H : real (EOF, []) |- _ => apply H; reflexivity end. }
    pose proof (U _ _ _ S R (p_steps _ _ _ _ _ P) (p_groups _ _ _ _ _ P)) as E1.
    pose proof (U _ _ _ S' R' (p_steps _ _ _ _ _ P') (p_groups _ _ _ _ _ P')) as E2.
    pose proof (p_toks _ _ _ _ _ P) as Tk. pose proof (p_toks _ _ _ _ _ P') as Tk'. rewrite E1 in Tk. rewrite E2 in Tk'.
    rewrite (process_den _ _ (p_den _ _ _ _ _ P)) in B, B'. cbn [bind] in B, B'.
    apply bind_ok in B as (s & Rn & Fn). apply bind_ok in B' as (s' & Rn' & Fn').
    assert (Fe : forall t toks s g errs, sink_finish t toks s = Ok (g, errs) -> errs = sk_errors s).
    { clear. intros t toks s g errs H. unfold sink_finish in H. destruct (sk_state s); try discriminate.
      apply bind_ok in H as (s2 & E & H). apply bind_ok in H as (b & _ & H). apply bind_ok in H as (x & _ & H). injection H as _ <-.
      unfold eat_trivias in E. revert E. cbn [with_state sk_token_pos]. generalize (skipn (sk_token_pos s) toks) as l.
      assert (Q : forall l u, eat_trivias_from t l u = Ok s2 -> sk_errors s2 = sk_errors u).
      { induction l as [|x0 l IH]; intros u E; cbn [eat_trivias_from] in E; [injection E as ->; reflexivity|].
        destruct (is_trivia _); [|injection E as ->; reflexivity]. apply bind_ok in E as (u2 & D & E). rewrite (IH _ E).
        unfold do_token in D. apply bind_ok in D as (? & _ & D). apply bind_ok in D as (? & _ & D). apply bind_ok in D as (? & _ & D).
        injection D as <-. reflexivity. }
      intros l E. exact (Q _ _ E). }
    rewrite (Fe _ _ _ _ _ Fn), (Fe _ _ _ _ _ Fn').
    assert (Ff : match toks, toks' with x :: _, y :: _ => solid_tok x = solid_tok y | _, _ => False end).
    { rewrite Tk, Tk'. pose proof (m_first _ _ _ (mates_start _ _ K1 K2 K3)) as Q.
      destruct ws as [|p r], ws' as [|p' r']; cbn [map app cur_kind] in *; unfold solid_tok; cbn [tok_of token_new t_kind]; try congruence; try reflexivity.
      }
    pose proof (calls_level t t' toks toks' Ff _ (flat_single [TNode SOURCE_FILE f]) sink_new sink_new 0%nat 0%nat PendingStart [] [] s s') as C.
    assert (Z : forall l, at_pos l sink_new 0 PendingStart []) by (intros l; constructor; reflexivity).
    specialize (C (Z _) (Z _)). specialize (C (conj (conj (fun x => x) (fun x => x)) eq_refl) (Forall2_nil _) Rn Rn').
    eapply forall2_impl; [|exact C]. intros e e' [Em (i & i' & H1 & H2 & H3)]. split; [exact Em|].
    rewrite Tk in H1, H3. rewrite Tk' in H2, H3.
    rewrite (toff_start t) in H1 by (try assumption; rewrite <- E1; apply (p_text _ _ _ _ _ P)).
    rewrite (toff_start t') in H2 by (try assumption; rewrite <- E2; apply (p_text _ _ _ _ _ P')).
    exists (Nat.min i (length ws)), (Nat.min i' (length ws')). split; [lia|]. split; [lia|]. split; [exact H1|]. split; [exact H2|].
    rewrite !nt_proper in H3.
    assert (Ln : length (proper ws) = length (proper ws')) by (clear - K1; induction K1; cbn; congruence).
    assert (Mn : forall l n, proper (firstn (Nat.min n (length l)) l) = proper (firstn n l)).
    { intros l n. destruct (Nat.le_ge_cases n (length l)) as [Le|Le]; [rewrite Nat.min_l by exact Le; reflexivity|].
      rewrite Nat.min_r, firstn_all, (firstn_all2 l Le) by exact Le. reflexivity. }
    rewrite !Mn.
    assert (Le : forall l n, (length (proper (firstn n l)) <= length (proper l))%nat).
    { intros l n. rewrite <- (firstn_skipn n l) at 2. rewrite proper_app, app_length. lia. }
    assert (Up : forall l n, Nat.leb n (length l) = false -> proper (firstn n l) = proper l).
    { intros l n Hn. apply Nat.leb_gt in Hn. rewrite firstn_all2 by lia. reflexivity. }
    pose proof (Le ws i) as L1. pose proof (Le ws' i') as L2. revert H3.
    destruct (Nat.leb i (length ws)) eqn:Q1, (Nat.leb i' (length ws')) eqn:Q2; intros H3.
    + lia.
    + rewrite (Up _ _ Q2) in H3 |- *. lia.
    + rewrite (Up _ _ Q1) in H3 |- *. lia.
    + lia.
Qed.
