(** On a file that is a sequence of tokens, the lexer never stops the parser. *)
From Coq Require Import String.
From Verif Require Import Base BaseProofs Kinds LexSpec Lexer LexerRuns LexerProofs LexerStateProofs
  Parser Grammar Sink TreeSpec ParserLogic GrammarProofs ProcessProofs SinkProofs TermProofs ParseProofs ShapeSpec ShapeProofs.
Local Open Scope N_scope.

(** Not a panic of the lexer. *)
Definition not_lexer (w : why) : Prop := w <> PTodo /\ w <> PSlice.
Definition calm {A} (r : res (A * pstate)) : Prop :=
  match r with Ok (_, s) => psim s s | Panic w => not_lexer w | Fuel => True end.

(** A program that looks at most two tokens ahead. *)
Fixpoint near {A} (p : prog A) : Prop :=
  match p with
  | Ret _ => True
  | Do c k => match c with CNth n => (n <= 2)%nat | _ => True end /\ forall b, near (k b)
  | Call f k => forall b, near (k b)
  end.
Lemma near_bind {A B} (p : prog A) (q : A -> prog B) : near p -> (forall a, near (q a)) -> near (pbind p q).
Proof.
  intros Hp Hq. induction p as [a|C c k IH|f k IH]; cbn [pbind near] in *; auto.
  destruct Hp as [H1 H2]. split; auto.
Qed.
Ltac nr := lazymatch goal with
  | |- near (pbind _ _) => apply near_bind; [nr | intro; nr]
  | |- near (Ret _) => exact I
  | |- near (do_ _) => cbn [do_ near]; split; [first [exact I | lia] | intros; exact I]
  | |- near (call _) => cbn; intros; exact I
  | |- near (match ?x with _ => _ end) => destruct x; nr
  | |- near (let '_ := ?x in _) => destruct x; nr
  | |- near ?p => let p' := eval red in p in change (near p'); cbv beta; nr
  end.
Lemma near_body f : near (body f).
Proof. destruct f; cbn [body]; nr. Qed.
Lemma near_root : near root.
Proof. nr. Qed.

Lemma look_calm lx n w : like lx lx -> (n <= 2)%nat -> lx_lookahead_nth lx n = Panic w -> False.
Proof.
  intros (t & t' & ws & ws' & rem & rem' & rest & rest' & k & len & len' & [l9 l10 l11 l12 l13 l14 l15 l16]) Hn.
  destruct n as [|[|[|n]]]; cbn [lx_lookahead_nth]; [discriminate| | |lia].
  - destruct (after_cur _ _ _ _ _ _ _ l9 l11) as (u & b & -> & -> & S1 & _).
    unfold lx_lookahead. rewrite (inv_slice_ok _ _ _ _ _ _ l9). cbn [bind].
    destruct (look1 _ _ S1 (tl_real _ l15)) as (n1 & ->). discriminate.
  - destruct (look2 _ _ _ _ _ _ _ l9 l11) as (? & ? & ->). discriminate.
Qed.

Lemma exec_calm {B} (c : cmd B) s : psim s s -> match c with CNth n => (n <= 2)%nat | _ => True end -> calm (exec c s).
Proof.
  intros P H. pose proof (exec_sim c s s P) as E.
  destruct (exec c s) as [[b s1]|w|] eqn:X; cbn [res_sim calm] in *; [apply E| |exact I].
  clear E. destruct P as [L _ _]. destruct c as [n| | | |k|msg|m k|m|c|b]; cbn [exec] in X; try discriminate.
  - unfold exec_nth in X. apply bind_panic in X as [X|(? & _ & X)].
    { unfold assert_ in X. destruct (Nat.leb n 3); [discriminate|]. injection X as <-. split; discriminate. }
    apply bind_panic in X as [X|(? & _ & X)].
    { unfold assert_ in X. destruct (_ <=? _); [discriminate|]. injection X as <-. split; discriminate. }
    apply bind_panic in X as [X|(? & _ & X)]; [|discriminate]. destruct (look_calm _ _ _ L H X).
  - destruct L as (t & t' & ws & ws' & rem & rem' & rest & rest' & k & len & len' & [l9 l10 l11 l12 l13 l14 l15 l16]).
    rewrite (cur_text _ _ _ _ _ _ _ l9 l11) in X. discriminate.
  - unfold exec_do_bump in X. destruct (bump_like _ _ L) as (l & l' & E & _). rewrite E in X. discriminate.
  - unfold exec_complete in X. destruct (nth_error _ _) as [[]|]; try discriminate X; injection X as <-; split; discriminate.
  - unfold exec_abandon in X. destruct (Nat.eqb _ _); [|discriminate].
    destruct (nth_error _ _) as [[k [o|]| | |]|]; cbn [bind] in X; try (injection X as <-; split; discriminate).
    all: destruct k; cbn [bind] in X; try discriminate X; injection X as <-; split; discriminate.
  - unfold exec_precede, exec_start in X. destruct (nth_error _ _) as [[k o| | |]|]; try (injection X as <-; split; discriminate).
    destruct (Nat.leb _ _); cbn [bind] in X; [discriminate|injection X as <-; split; discriminate].
  - unfold assert_ in X. destruct b; [discriminate|]. injection X as <-. split; discriminate.
Qed.

Lemma interp_calm (r : forall f, pstate -> res (fn_ret f * pstate)) {A} (p : prog A) :
  (forall f s, psim s s -> calm (r f s)) -> near p -> forall s, psim s s -> calm (interp r p s).
Proof.
  intros H. induction p as [a|B c k IH|f k IH]; intros Np s P; cbn [interp near] in *.
  - exact P.
  - destruct Np as [N1 N2]. pose proof (exec_calm c s P N1) as E.
    destruct (exec c s) as [[b s1]| |]; cbn [bind calm] in *; auto.
  - pose proof (H f s P) as E. destruct (r f s) as [[b s1]| |]; cbn [bind calm] in *; auto.
Qed.
Lemma run_calm n : forall f s, psim s s -> calm (run n f s).
Proof.
  induction n as [|n IH]; intros f s P; [exact I|]. cbn [run].
  apply interp_calm; [exact IH|apply near_body|exact P].
Qed.

Lemma alike_refl ws : Forall2 alike ws ws.
Proof. induction ws; constructor; [split; [reflexivity|tauto]|assumption]. Qed.

Lemma stream_panics t ws w : tlen t < u32_bound -> token_stream t ws -> ascii_literals ws ->
  parse_text t = Panic w -> w = PAssert.
Proof.
  intros Hs T A H. destruct (stream_steps' _ _ T A) as [S R].
  destruct (new_like t t ws ws S S R R (alike_refl ws)) as (lx & lx' & N & N' & P).
  rewrite N in N'. injection N' as <-.
  pose proof (parse_cases t Hs) as C. rewrite H in C.
  pose proof (grammar_sound t lx (parse_fuel (lx_text lx)) N) as G.
  unfold parse_text in H. rewrite N in H. cbn [bind] in H.
  unfold parse_with_lexer in *.
  pose proof (interp_calm _ root (run_calm (parse_fuel (lx_text lx))) near_root _ P) as Q.
  destruct (interp (run (parse_fuel (lx_text lx))) root (parser_new lx)) as [[u s]|w'|]; cbn [bind calm] in *.
  - destruct G as (f & gs & G). destruct (build_ok _ _ _ _ _ Hs G) as (g & errs & B & _). congruence.
  - injection H as ->. destruct Q as [Q1 Q2]. destruct C as [C|[C|C]]; congruence.
  - discriminate.
Qed.
