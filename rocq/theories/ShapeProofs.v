(** The parser looks at kinds of tokens only (and at "0x"). *)
From Coq Require Import String.
From Verif Require Import Base BaseProofs Kinds KindsProofs LexSpec Lexer LexerRuns LexerProofs LexerStateProofs
  Parser Grammar Sink TreeSpec GreenSpec ParserLogic GrammarProofs ProcessProofs SinkProofs TermProofs ParseProofs ShapeSpec.
Local Open Scope N_scope.

Notation pc := (kind * text)%type.
Definition real (p : pc) : Prop := fst p <> EOF.
Definition cur_kind (rem : list pc) : kind := match rem with [] => EOF | p :: _ => fst p end.

Lemma alike_hex p q : alike p q -> starts_with (snd p) (`"0x") = starts_with (snd q) (`"0x").
Proof.
  intros [_ H]. assert (G : forall w, starts_with w (`"0x") = true <-> looks_hex w).
  { intros w. unfold looks_hex. rewrite starts_with_spec. reflexivity. }
  destruct (starts_with (snd p) _) eqn:A, (starts_with (snd q) _) eqn:B; try reflexivity; exfalso.
  - apply G in A. apply H, G in A. congruence.
  - apply G in B. apply H, G in B. congruence.
Qed.

Lemma steps_nil_pieces ws r : steps [] ws r -> r = [] /\ Forall (fun p => p = (EOF, [])) ws.
Proof.
  remember [] as t eqn:E. induction 1 as [|k w t ws r F S IH]; [auto|].
  apply app_eq_nil in E as [-> ->]. injection F as <-. destruct (IH eq_refl) as [-> H]. auto.
Qed.

Lemma steps_split t a r : steps t a r -> forall rem, steps t rem [] -> Forall real a ->
  exists rem1, rem = a ++ rem1 /\ steps r rem1 [].
Proof.
  induction 1 as [t|k w t ws r F S IH]; intros rem S2 Ha; [exists rem; auto|].
  inversion Ha as [|? ? H1 H2]; subst.
  inversion S2 as [|k' w' t' ws' ? F' S2' E]; subst.
  - match goal with E : _ ++ _ = [] |- _ => apply app_eq_nil in E as [-> ->] end.
    injection F as <-. exfalso. apply H1. reflexivity.
  - rewrite E, F in F'. injection F' as <- El.
    assert (w' = w) by (eapply (tlen_prefix_inj w' t' w t); auto). subst w'.
    apply app_inv_head in E. subst t'. destruct (IH _ S2' H2) as (rem1 & -> & S'). exists rem1. auto.
Qed.

Lemma trivia_real p : trivia_piece p -> real p.
Proof. unfold trivia_piece, real. intros H E. rewrite E in H. discriminate. Qed.

Lemma find_cur rest rem k len : steps rest rem [] -> find_token rest = Ok (k, len) -> k = cur_kind rem.
Proof.
  intros S F. inversion S; subst; [injection F as <- _; reflexivity|].
  cbn [cur_kind fst]. congruence.
Qed.

(** ** Two lexers over like files, at the same token *)
Record lsim (lx lx' : lexer) (t t' : text) (ws ws' rem rem' : list pc) (rest rest' : text) (k : kind) (len len' : N) : Prop := {
  l1 : lx_inv t lx ws rest k len;
  l2 : lx_inv t' lx' ws' rest' k len';
  l3 : steps rest rem [];
  l4 : steps rest' rem' [];
  l5 : Forall2 alike ws ws';
  l6 : Forall2 alike rem rem';
  l7 : Forall real rem;
  l8 : Forall real rem'
}.
Definition like (lx lx' : lexer) : Prop := exists t t' ws ws' rem rem' rest rest' k len len',
  lsim lx lx' t t' ws ws' rem rem' rest rest' k len len'.

Lemma after_cur t lx ws rest k len rem : lx_inv t lx ws rest k len -> steps rest rem [] ->
  exists w b, rest = w ++ b /\ len = tlen w /\ steps b (tl rem) [] /\
    (rem = [] /\ w = [] \/ exists r, rem = (k, w) :: r).
Proof.
  intros I S. pose proof (li_cur _ _ _ _ _ _ I) as F.
  inversion S as [|k' w' t' ws' ? F' S2' E]; subst.
  - injection F as <- <-. exists [], []. split; [reflexivity|]. split; [reflexivity|]. split; [constructor|auto].
  - rewrite F in F'. injection F' as <- ->. exists w', t'. cbn [tl]. eauto 8.
Qed.

Lemma look1 b rem : steps b rem [] -> Forall real rem ->
  exists len, find_token (trim_start b) =
    Ok (cur_kind ((fix skip l := match l with p :: r => if kind_eqb (fst p) WHITESPACE then skip r else l | [] => [] end) rem), len).
Proof.
  intros S. remember [] as e eqn:Ee. induction S as [t|k w t ws r F S IH]; intros Hr.
  - subst t. exists 0. reflexivity.
  - inversion Hr; subst. cbn [fst]. destruct (kind_eqb k WHITESPACE) eqn:K.
    + apply kind_eqb_eq in K. subst k.
      rewrite trim_start_blank by (eapply whitespace_piece; eauto). auto.
    + rewrite (trim_start_stop _ _ _ F) by (intros ->; discriminate).
      exists (tlen w). rewrite F. reflexivity.
Qed.

Lemma skip_alike rem rem' : Forall2 alike rem rem' ->
  cur_kind ((fix skip l := match l with p :: r => if kind_eqb (fst p) WHITESPACE then skip r else l | [] => [] end) rem) =
  cur_kind ((fix skip l := match l with p :: r => if kind_eqb (fst p) WHITESPACE then skip r else l | [] => [] end) rem').
Proof.
  induction 1 as [|p q r r' [E _] _ IH]; [reflexivity|]. rewrite <- E.
  destruct (kind_eqb (fst p) WHITESPACE); [exact IH|]. cbn [cur_kind]. exact E.
Qed.

Lemma cur_alike rem rem' : Forall2 alike rem rem' -> cur_kind rem = cur_kind rem'.
Proof. destruct 1 as [|p q r r' [E _] _]; [reflexivity|exact E]. Qed.
Lemma tl_alike {A} (R : A -> A -> Prop) a b : Forall2 R a b -> Forall2 R (tl a) (tl b).
Proof. destruct 1; [constructor|assumption]. Qed.
Lemma tl_real rem : Forall real rem -> Forall real (tl rem).
Proof. destruct 1; [constructor|assumption]. Qed.

Lemma steps_find b rem : steps b rem [] -> exists len, find_token b = Ok (cur_kind rem, len).
Proof. intros S. inversion S; subst; [exists 0; reflexivity|cbn [cur_kind fst]; eauto]. Qed.

Lemma look2 t lx ws rest k len rem : lx_inv t lx ws rest k len -> steps rest rem [] ->
  exists tok1 len2, lx_lookahead_2 lx = Ok (tok1, token_new (cur_kind (tl (tl rem))) len2).
Proof.
  intros I S. destruct (after_cur _ _ _ _ _ _ _ I S) as (w & b & -> & -> & S1 & _).
  unfold lx_lookahead_2. rewrite (inv_slice_ok _ _ _ _ _ _ I). cbn [bind].
  assert (E : exists w1 b1, b = w1 ++ b1 /\ find_token b = Ok (cur_kind (tl rem), tlen w1) /\ steps b1 (tl (tl rem)) []).
  { inversion S1; subst; [exists [], []; repeat split; constructor|].
    match goal with |- context [_ :: ?ws] => idtac end. cbn [cur_kind fst tl]. eauto 6. }
  destruct E as (w1 & b1 & -> & F1 & S2). rewrite F1. cbn [bind].
  destruct (steps_find _ _ S2) as (len2 & F2).
  assert (E : tlen (lx_text lx) - tlen (w1 ++ b1) + tlen w1 = tlen (pieces ws ++ w ++ w1)).
  { rewrite (li_text _ _ _ _ _ _ I).
    rewrite (steps_text _ _ _ (li_steps _ _ _ _ _ _ I)), !tlen_app. lia. }
  rewrite E, (li_text _ _ _ _ _ _ I), (steps_text _ _ _ (li_steps _ _ _ _ _ _ I)).
  replace (pieces ws ++ w ++ w1 ++ b1) with ((pieces ws ++ w ++ w1) ++ b1) by (rewrite <- !app_assoc; reflexivity).
  rewrite slice_from_app. cbn [bind]. rewrite F2. cbn [bind]. eauto.
Qed.

Lemma look_like lx lx' n : like lx lx' ->
  match lx_lookahead_nth lx n, lx_lookahead_nth lx' n with
  | Ok a, Ok b => t_kind a = t_kind b
  | Panic w, Panic w' => w = w'
  | _, _ => False
  end.
Proof.
  intros (t & t' & ws & ws' & rem & rem' & rest & rest' & k & len & len' & []).
  destruct n as [|[|[|n]]]; cbn [lx_lookahead_nth].
  - unfold lx_current. rewrite (li_tok _ _ _ _ _ _ l9), (li_tok _ _ _ _ _ _ l10). reflexivity.
  - destruct (after_cur _ _ _ _ _ _ _ l9 l11) as (w & b & -> & -> & S1 & _).
    destruct (after_cur _ _ _ _ _ _ _ l10 l12) as (w' & b' & -> & -> & S1' & _).
    unfold lx_lookahead. rewrite (inv_slice_ok _ _ _ _ _ _ l9), (inv_slice_ok _ _ _ _ _ _ l10). cbn [bind].
    destruct (look1 _ _ S1 (tl_real _ l15)) as (n1 & ->). destruct (look1 _ _ S1' (tl_real _ l16)) as (n2 & ->).
    cbn [bind]. rewrite (skip_alike _ _ (tl_alike _ _ _ l14)). reflexivity.
  - destruct (look2 _ _ _ _ _ _ _ l9 l11) as (? & ? & ->). destruct (look2 _ _ _ _ _ _ _ l10 l12) as (? & ? & ->).
    cbn [bind snd]. rewrite (cur_alike _ _ (tl_alike _ _ _ (tl_alike _ _ _ l14))). reflexivity.
  - reflexivity.
Qed.

Lemma cur_text t lx ws rest k len rem : lx_inv t lx ws rest k len -> steps rest rem [] ->
  lx_current_text lx = Ok (match rem with [] => [] | p :: _ => snd p end).
Proof.
  intros I S. destruct (after_cur _ _ _ _ _ _ _ I S) as (w & b & -> & -> & S1 & C).
  assert (E : w = match rem with [] => [] | p :: _ => snd p end).
  { destruct C as [[-> ->]|[r ->]]; reflexivity. }
  rewrite <- E. unfold lx_current_text.
  rewrite (li_text _ _ _ _ _ _ I), (li_start _ _ _ _ _ _ I), (li_end _ _ _ _ _ _ I).
  rewrite (steps_text _ _ _ (li_steps _ _ _ _ _ _ I)), app_assoc, <- tlen_app, slice_to_app.
  cbn [bind]. apply slice_from_app.
Qed.

Lemma split_alike tr tr' r r' : Forall trivia_piece tr -> Forall trivia_piece tr' ->
  is_trivia (cur_kind r) = false -> is_trivia (cur_kind r') = false ->
  Forall2 alike (tr ++ r) (tr' ++ r') -> Forall2 alike tr tr' /\ Forall2 alike r r'.
Proof.
  intros H. revert tr'. induction H as [|p tr Hp _ IH]; intros tr' H' C C' F.
  - destruct H' as [|p' tr' Hp' _]; [auto|]. cbn [app] in F. inversion F as [|? ? ? ? [E _] ? E1 E2]; subst.
    exfalso. cbn [cur_kind] in C. unfold trivia_piece in Hp'. congruence.
  - destruct H' as [|p' tr' Hp' H'].
    + cbn [app] in F. inversion F as [|? ? ? ? [E _] ? E1 E2]; subst.
      exfalso. cbn [cur_kind] in C'. unfold trivia_piece in Hp. congruence.
    + cbn [app] in F. inversion F; subst. destruct (IH _ H' C C') as [A B]; [assumption|]. auto.
Qed.

Lemma bump_side t lx ws rest k len rem : lx_inv t lx ws rest k len -> steps rest rem [] -> Forall real rem ->
  exists lx' w tr rest1 k' len' rem1, lx_bump lx = Ok lx' /\ Forall trivia_piece tr /\
    lx_inv t lx' (ws ++ (k, w) :: tr) rest1 k' len' /\ steps rest1 rem1 [] /\
    is_trivia (cur_kind rem1) = false /\
    (rem = [] /\ k = EOF /\ w = [] /\ tr = [] /\ rem1 = [] \/ rem = (k, w) :: tr ++ rem1).
Proof.
  intros I S R. destruct (bump_ok _ _ _ _ _ _ _ I S) as (lx' & B).
  destruct (bump_inv _ _ _ _ _ _ _ I B) as (w & tr & rest1 & k' & len' & L & T & S' & K & I').
  exists lx', w, tr, rest1, k', len'.
  destruct rem as [|p rem0].
  - assert (rest = []) by (inversion S; reflexivity). subst rest.
    destruct (steps_nil_pieces _ _ S') as [-> F]. inversion F as [|? ? E F']; subst. injection E as -> ->.
    assert (tr = []).
    { destruct tr as [|q tr]; [reflexivity|]. inversion F'; inversion T; subst. discriminate. }
    subst tr. exists []. split; [exact B|]. split; [exact T|]. split; [exact I'|]. split; [constructor|].
    split; [reflexivity|]. left. auto.
  - assert (Hr : Forall real ((k, w) :: tr)).
    { constructor; [|eapply Forall_impl; [apply trivia_real|exact T]].
      unfold real. cbn [fst]. rewrite (find_cur _ _ _ _ S (li_cur _ _ _ _ _ _ I)). inversion R. assumption. }
    destruct (steps_split _ _ _ S' _ S Hr) as (rem1 & E & S1). cbn [app] in E.
    exists rem1. split; [exact B|]. split; [exact T|]. split; [exact I'|]. split; [exact S1|].
    split; [|auto]. rewrite <- (find_cur _ _ _ _ S1 (li_cur _ _ _ _ _ _ I')). exact K.
Qed.

Lemma bump_like lx lx' : like lx lx' -> exists l l', lx_bump lx = Ok l /\ lx_bump lx' = Ok l' /\ like l l'.
Proof.
  intros (t & t' & ws & ws' & rem & rem' & rest & rest' & k & len & len' & []).
  destruct (bump_side _ _ _ _ _ _ _ l9 l11 l15) as (l & w & tr & rest1 & k1 & len1 & rem1 & B & T & I & S & C & E).
  destruct (bump_side _ _ _ _ _ _ _ l10 l12 l16) as (l' & w' & tr' & rest1' & k1' & len1' & rem1' & B' & T' & I' & S' & C' & E').
  exists l, l'. split; [exact B|]. split; [exact B'|].
  assert (Q : Forall2 alike ((k, w) :: tr) ((k, w') :: tr') /\ Forall2 alike rem1 rem1' /\ Forall real rem1 /\ Forall real rem1').
  { destruct E as [(-> & -> & -> & -> & ->)| -> ], E' as [(-> & E1 & -> & -> & ->)| -> ].
    - repeat split; constructor; [|constructor]. split; [reflexivity|reflexivity].
    - inversion l14.
    - inversion l14.
    - inversion l14; subst.
      match goal with H : Forall2 alike (_ ++ _) _ |- _ => destruct (split_alike _ _ _ _ T T' C C' H) as [A1 A2] end.
      split; [constructor; assumption|]. split; [exact A2|].
      inversion l15 as [|? ? ? R1]; inversion l16 as [|? ? ? R2]; subst.
      apply Forall_app in R1 as [_ R1]. apply Forall_app in R2 as [_ R2]. auto. }
  destruct Q as (Q1 & Q2 & Q3 & Q4).
  assert (k1' = k1).
  { rewrite (find_cur _ _ _ _ S (li_cur _ _ _ _ _ _ I)), (find_cur _ _ _ _ S' (li_cur _ _ _ _ _ _ I')).
    symmetry. apply cur_alike, Q2. }
  subst k1'. exists t, t', (ws ++ (k, w) :: tr), (ws' ++ (k, w') :: tr'), rem1, rem1', rest1, rest1', k1, len1, len1'.
  constructor; auto. apply Forall2_app; auto.
Qed.

(** ** Parser states and programs *)
Record psim (s s' : pstate) : Prop := {
  q_lex : like (ps_lexer s) (ps_lexer s');
  q_events : ps_events s' = ps_events s;
  q_steps : ps_steps s' = ps_steps s
}.

Definition same_hex (a b : text) : Prop := starts_with a (`"0x") = starts_with b (`"0x").
Definition res_sim {A} (R : A -> A -> Prop) (r r' : res (A * pstate)) : Prop :=
  match r, r' with
  | Ok (a, s), Ok (a', s') => R a a' /\ psim s s'
  | Panic w, Panic w' => w = w'
  | Fuel, Fuel => True
  | _, _ => False
  end.
Definition cmd_rel {B} (c : cmd B) : B -> B -> Prop :=
  match c in cmd B return B -> B -> Prop with
  | CCurrentText => same_hex
  | _ => eq
  end.

Lemma exec_sim {B} (c : cmd B) s s' : psim s s' -> res_sim (cmd_rel c) (exec c s) (exec c s').
Proof.
  intros [L E St]. destruct c as [n| | | |k|msg|m k|m|c|b]; cbn [exec cmd_rel].
  - unfold exec_nth. rewrite St. destruct (assert_ (Nat.leb n 3)); cbn [bind res_sim]; auto.
    destruct (assert_ _); cbn [bind res_sim]; auto.
    pose proof (look_like _ _ n L) as H.
    destruct (lx_lookahead_nth (ps_lexer s) n), (lx_lookahead_nth (ps_lexer s') n); cbn [bind res_sim]; try tauto.
    split; [exact H|]. constructor; cbn [ps_lexer ps_events ps_steps]; auto.
  - cbn [res_sim]. split; [|constructor; auto].
    destruct L as (t & t' & ws & ws' & rem & rem' & rest & rest' & k & len & len' & []). unfold lx_current.
    rewrite (li_tok _ _ _ _ _ _ l9), (li_tok _ _ _ _ _ _ l10). reflexivity.
  - pose proof L as (t & t' & ws & ws' & rem & rem' & rest & rest' & k & len & len' & []).
    rewrite (cur_text _ _ _ _ _ _ _ l9 l11), (cur_text _ _ _ _ _ _ _ l10 l12). cbn [bind res_sim].
    split; [|constructor; auto]. destruct l14 as [|p q ? ? A _]; [reflexivity|]. apply alike_hex, A.
  - unfold exec_start, push_event. rewrite E, St. cbn [res_sim]. split; [reflexivity|]. constructor; auto.
  - unfold exec_do_bump. destruct (bump_like _ _ L) as (l & l' & -> & -> & L'). cbn [bind res_sim].
    rewrite E, St. split; [reflexivity|]. constructor; auto.
  - unfold push_event. rewrite E, St. cbn [res_sim]. split; [reflexivity|]. constructor; auto.
  - unfold exec_complete, with_events. rewrite E, St.
    destruct (nth_error (ps_events s) m) as [[]|]; cbn [res_sim]; auto. split; [reflexivity|]. constructor; auto.
  - unfold exec_abandon, with_events. rewrite E, St. destruct (Nat.eqb _ _); cbn [bind res_sim].
    + destruct (nth_error (ps_events s) m) as [[k [o|]| | |]|]; cbn [bind res_sim]; auto.
      all: destruct k; cbn [bind res_sim]; auto. split; [reflexivity|]. constructor; auto.
    + split; [reflexivity|]. constructor; auto.
  - unfold exec_precede, exec_start, push_event, with_events. cbn [ps_lexer ps_events ps_steps]. rewrite E, St.
    destruct (nth_error _ (cm_start c)) as [[k o| | |]|]; cbn [bind res_sim]; auto.
    destruct (Nat.leb _ _); cbn [bind res_sim]; auto. split; [reflexivity|]. constructor; auto.
  - destruct (assert_ b); cbn [bind res_sim]; auto. split; [reflexivity|]. constructor; auto.
Qed.

(** A program is [blind] if what it does depends on the text of the current
    token only through the test for "0x". *)
Fixpoint blind {A} (p : prog A) : Prop :=
  match p with
  | Ret _ => True
  | Do c k => (forall b, blind (k b)) /\ (forall b b', cmd_rel c b b' -> k b = k b')
  | Call f k => forall b, blind (k b)
  end.
Lemma blind_bind {A B} (p : prog A) (q : A -> prog B) : blind p -> (forall a, blind (q a)) -> blind (pbind p q).
Proof.
  intros Hp Hq. induction p as [a|C c k IH|f k IH]; cbn [pbind blind] in *; auto.
  destruct Hp as [H1 H2]. split; [auto|]. intros b b' R. rewrite (H2 b b' R). reflexivity.
Qed.

Lemma interp_sim (r r' : forall f, pstate -> res (fn_ret f * pstate)) {A} (p : prog A) :
  (forall f s s', psim s s' -> res_sim eq (r f s) (r' f s')) -> blind p ->
  forall s s', psim s s' -> res_sim eq (interp r p s) (interp r' p s').
Proof.
  intros H. induction p as [a|B c k IH|f k IH]; intros Bp s s' P; cbn [interp blind] in *.
  - cbn [res_sim]. auto.
  - destruct Bp as [B1 B2]. pose proof (exec_sim c s s' P) as E.
    destruct (exec c s) as [[b s1]| |], (exec c s') as [[b' s1']| |]; cbn [bind res_sim] in *; try tauto.
    destruct E as [E P']. rewrite <- (B2 _ _ E). apply IH; auto.
  - pose proof (H f s s' P) as E.
    destruct (r f s) as [[b s1]| |], (r' f s') as [[b' s1']| |]; cbn [bind res_sim] in *; try tauto.
    destruct E as [<- P']. apply IH; auto.
Qed.

(** ** Every grammar function is blind *)
Lemma blind_do {B} (c : cmd B) : cmd_rel c = eq -> blind (do_ c).
Proof. intros E. cbn. split; [auto|]. rewrite E. congruence. Qed.
Lemma blind_call f : blind (call f).
Proof. cbn. auto. Qed.
Lemma blind_address : blind bump_address.
Proof.
  unfold bump_address. apply blind_bind; [apply blind_do; reflexivity|]. intros c.
  destruct (kind_eqb c IDENT).
  - apply blind_bind; [|intros; exact I]. unfold bump, assert_p, eat, at_, nth_at, nth_, do_bump.
    repeat first [apply blind_bind; intros | apply blind_do; reflexivity | match goal with |- blind (if ?b then _ else _) => destruct b end | exact I].
  - apply blind_bind; [|intros b; destruct b].
    + destruct (kind_eqb c INTEGER_NUMBER); [|exact I].
      cbn. split; [auto|]. intros b b' H. unfold same_hex in H. cbn in H. rewrite H. reflexivity.
    + unfold bump_remap, nth_, do_bump.
      repeat first [apply blind_bind; intros | apply blind_do; reflexivity | match goal with |- blind (if ?b then _ else _) => destruct b end | exact I].
    + exact I.
Qed.

Ltac bl := lazymatch goal with
  | |- blind bump_address => apply blind_address
  | |- blind (pbind _ _) => apply blind_bind; [bl | intro; bl]
  | |- blind (Ret _) => exact I
  | |- blind (do_ _) => apply blind_do; reflexivity
  | |- blind (call _) => apply blind_call
  | |- blind (match ?x with _ => _ end) => destruct x; bl
  | |- blind (let '_ := ?x in _) => destruct x; bl
  | |- blind ?p => let p' := eval red in p in change (blind p'); cbv beta; bl
  end.
Lemma blind_body f : blind (body f).
Proof. destruct f; cbn [body]; bl. Qed.
Lemma blind_root : blind root.
Proof. bl. Qed.

Lemma run_sim n : forall f s s', psim s s' -> res_sim eq (run n f s) (run n f s').
Proof.
  induction n as [|n IH]; intros f s s' P; [exact I|]. cbn [run].
  apply interp_sim; [exact IH|apply blind_body|exact P].
Qed.

Lemma new_like t t' ws ws' : steps t ws [] -> steps t' ws' [] -> Forall real ws -> Forall real ws' ->
  Forall2 alike ws ws' -> exists lx lx', lexer_new t = Ok lx /\ lexer_new t' = Ok lx' /\ psim (parser_new lx) (parser_new lx').
Proof.
  intros S S' R R' A. destruct (steps_find _ _ S) as (len & F). destruct (steps_find _ _ S') as (len' & F').
  unfold lexer_new. rewrite F, F'. cbn [bind]. eexists _, _. split; [reflexivity|]. split; [reflexivity|].
  constructor; cbn [ps_lexer ps_events ps_steps]; auto.
  exists t, t', [], [], ws, ws', t, t', (cur_kind ws), len, len'.
  rewrite <- (cur_alike _ _ A) in *. constructor; auto; constructor; auto; constructor.
Qed.

Lemma parser_same t t' ws ws' : steps t ws [] -> steps t' ws' [] -> Forall real ws -> Forall real ws' ->
  Forall2 alike ws ws' -> exists lx lx', lexer_new t = Ok lx /\ lexer_new t' = Ok lx' /\
  match parse_with_lexer lx, parse_with_lexer lx' with
  | Ok (evs, toks), Ok (evs', toks') => evs = evs' /\ (exists f gs, parsed t evs toks f gs) /\
      (exists f gs, parsed t' evs' toks' f gs)
  | Panic w, Panic w' => w = w'
  | _, _ => False
  end.
Proof.
  intros S S' R R' A. destruct (new_like _ _ _ _ S S' R R' A) as (lx & lx' & N & N' & P).
  exists lx, lx'. split; [exact N|]. split; [exact N'|].
  pose proof (parse_ends t lx N) as E. pose proof (parse_ends t' lx' N') as E'.
  pose proof (grammar_sound t lx (parse_fuel (lx_text lx)) N) as G.
  pose proof (grammar_sound t' lx' (parse_fuel (lx_text lx')) N') as G'.
  unfold parse_with_lexer in *.
  set (n := parse_fuel (lx_text lx)) in *. set (n' := parse_fuel (lx_text lx')) in *.
  assert (M : interp (run (n + n')) root (parser_new lx) = interp (run n) root (parser_new lx)).
  { apply interp_more; [|intros X; apply E; rewrite X; reflexivity].
    intros f s X. apply run_more; [lia|exact X]. }
  assert (M' : interp (run (n + n')) root (parser_new lx') = interp (run n') root (parser_new lx')).
  { apply interp_more; [|intros X; apply E'; rewrite X; reflexivity].
    intros f s X. apply run_more; [lia|exact X]. }
  pose proof (interp_sim (run (n + n')) (run (n + n')) root (run_sim _) blind_root _ _ P) as Q.
  rewrite M, M' in Q.
  destruct (interp (run n) root (parser_new lx)) as [[u s]| |], (interp (run n') root (parser_new lx')) as [[u' s']| |];
    cbn [bind res_sim] in *; try tauto.
  destruct Q as [_ Q]. rewrite (q_events _ _ Q). rewrite (q_events _ _ Q) in G'. auto.
Qed.

(** ** The two trees are built in step *)
Definition nsum (l : list N) : N := fold_right N.add 0 l.
Definition toff (toks : list token) (i : nat) : N := nsum (map t_len (firstn i toks)).
Lemma nsum_app a b : nsum (a ++ b) = nsum a + nsum b.
Proof. induction a as [|x a IH]; cbn [app nsum fold_right]; [reflexivity|]. fold (nsum (a ++ b)) (nsum a). lia. Qed.
Lemma firstn_plus {A} i n : forall l : list A, firstn (i + n) l = firstn i l ++ firstn n (skipn i l).
Proof.
  induction i as [|i IH]; intros l; [reflexivity|]. destruct l as [|x l]; cbn [Nat.add firstn skipn app].
  - rewrite !firstn_nil. reflexivity.
  - rewrite IH. reflexivity.
Qed.
Lemma toff_plus toks i n : toff toks (i + n) = toff toks i + nsum (map t_len (firstn n (skipn i toks))).
Proof. unfold toff. rewrite firstn_plus, map_app, nsum_app. reflexivity. Qed.
Lemma sum_len_val l n : sum_len l = Ok n -> n = nsum (map t_len l).
Proof.
  revert n. induction l as [|x l IH]; intros n; cbn [sum_len map nsum fold_right]; [congruence|].
  intros H. apply bind_ok in H as (m & H & E). rewrite (IH _ H) in E.
  unfold u32_add in E. destruct (_ <? _); [|discriminate]. injection E as <-. reflexivity.
Qed.
Lemma nth_skipn {A} i : forall (l : list A) x, nth_error l i = Some x -> skipn i l = x :: skipn (S i) l.
Proof.
  induction i as [|i IH]; intros l x H; destruct l as [|y l]; try discriminate; [injection H as ->; reflexivity|].
  cbn [nth_error] in H. cbn [skipn]. rewrite (IH _ _ H). reflexivity.
Qed.
Lemma toff_next toks i x : nth_error toks i = Some x -> toff toks (i + 1) = toff toks i + t_len x.
Proof.
  intros H. rewrite toff_plus, (nth_skipn _ _ _ H). cbn [firstn map nsum fold_right]. lia.
Qed.

Lemma shapes_app a : forall a' b b', same_shapes a a' -> same_shapes b b' -> same_shapes (a ++ b) (a' ++ b').
Proof.
  induction a as [|x a IH]; intros a' b b' H Hb; inversion H; subst; cbn [app]; [exact Hb|constructor; auto].
Qed.
Lemma shapes_length a : forall a', same_shapes a a' -> length a = length a'.
Proof. induction a as [|x a IH]; intros a' H; inversion H; subst; cbn [length]; auto. Qed.
Lemma shapes_firstn n : forall a a', same_shapes a a' -> same_shapes (firstn n a) (firstn n a').
Proof. induction n as [|n IH]; intros a a' H; [constructor|]. inversion H; subst; cbn [firstn]; constructor; auto. Qed.
Lemma shapes_skipn n : forall a a', same_shapes a a' -> same_shapes (skipn n a) (skipn n a').
Proof. induction n as [|n IH]; intros a a' H; [exact H|]. inversion H; subst; cbn [skipn]; [constructor|auto]. Qed.

Section Step.
  Variables t t' : text.
  Variables toks toks' : list token.
  Hypothesis Hk : map t_kind toks = map t_kind toks'.

  Definition err_sim (e e' : syntax_error) : Prop :=
    se_msg e = se_msg e' /\ exists i, se_pos e = toff toks i /\ se_pos e' = toff toks' i.
  Record ssim (s s' : sink) : Prop := {
    z_pos : sk_token_pos s' = sk_token_pos s;
    z_off : sk_text_pos s = toff toks (sk_token_pos s);
    z_off' : sk_text_pos s' = toff toks' (sk_token_pos s);
    z_state : sk_state s' = sk_state s;
    z_parents : b_parents (sk_inner s') = b_parents (sk_inner s);
    z_children : same_shapes (b_children (sk_inner s)) (b_children (sk_inner s'));
    z_errors : Forall2 err_sim (sk_errors s) (sk_errors s')
  }.

  Lemma kinds_nth i x : nth_error toks i = Some x -> exists x', nth_error toks' i = Some x' /\ t_kind x' = t_kind x.
  Proof.
    intros H. assert (E : nth_error (map t_kind toks') i = Some (t_kind x)).
    { rewrite <- Hk. apply map_nth_error. exact H. }
    destruct (nth_error toks' i) as [x'|] eqn:F.
    - exists x'. split; [reflexivity|]. rewrite (map_nth_error t_kind _ _ F) in E. congruence.
    - exfalso. apply nth_error_None in F. assert (nth_error (map t_kind toks') i = None); [|congruence].
      apply nth_error_None. rewrite map_length. exact F.
  Qed.
  Lemma same_len : length toks = length toks'.
  Proof. rewrite <- (map_length t_kind toks), Hk, map_length. reflexivity. Qed.

  Lemma do_token_sim s s' k n len len' s1 s1' : ssim s s' ->
    toff toks (sk_token_pos s + n) = toff toks (sk_token_pos s) + len ->
    toff toks' (sk_token_pos s + n) = toff toks' (sk_token_pos s) + len' ->
    do_token t s k len n = Ok s1 -> do_token t' s' k len' n = Ok s1' -> ssim s1 s1'.
  Proof.
    intros [] L L' H H'. unfold do_token in *.
    apply bind_ok in H as (e & H1 & H). apply bind_ok in H as (x & _ & H). apply bind_ok in H as (y & _ & H).
    apply bind_ok in H' as (e' & H1' & H'). apply bind_ok in H' as (x' & _ & H'). apply bind_ok in H' as (y' & _ & H').
    injection H as <-. injection H' as <-.
    unfold u32_add in H1, H1'. destruct (_ <? _) in H1; [|discriminate]. destruct (_ <? _) in H1'; [|discriminate].
    injection H1 as <-. injection H1' as <-.
    constructor; cbn [sk_token_pos sk_text_pos sk_state sk_inner sk_errors b_token b_parents b_children]; auto.
    all: try congruence.
    apply shapes_app; [auto|]. repeat constructor.
  Qed.

  Lemma eat_sim : forall rest rest' s s' s1 s1', ssim s s' ->
    rest = skipn (sk_token_pos s) toks -> rest' = skipn (sk_token_pos s) toks' ->
    eat_trivias_from t rest s = Ok s1 -> eat_trivias_from t' rest' s' = Ok s1' -> ssim s1 s1'.
  Proof.
    induction rest as [|x rest IH]; intros rest' s s' s1 s1' Z E E' H H'.
    - assert (rest' = []).
      { rewrite E'. apply skipn_all2. rewrite <- same_len.
        assert (L : length (skipn (sk_token_pos s) toks) = 0%nat) by (rewrite <- E; reflexivity).
        rewrite skipn_length in L. lia. }
      subst rest'. rewrite H0 in *. cbn [eat_trivias_from] in *. congruence.
    - assert (N : nth_error toks (sk_token_pos s) = Some x).
      { clear - E. revert E. generalize (sk_token_pos s) as i. generalize toks as l.
        induction l as [|y l IH]; intros [|i] E; cbn [skipn nth_error] in *; try discriminate; [congruence|auto]. }
      destruct (kinds_nth _ _ N) as (x' & N' & K).
      rewrite (nth_skipn _ _ _ N') in E'. rewrite (nth_skipn _ _ _ N) in E. injection E as E.
      subst rest'. cbn [eat_trivias_from] in *. rewrite K in H'.
      destruct (is_trivia (t_kind x)); [|congruence].
      apply bind_ok in H as (s2 & H2 & H). apply bind_ok in H' as (s2' & H2' & H').
      assert (P : (sk_token_pos s2 = sk_token_pos s + 1)%nat).
      { clear - H2. unfold do_token in H2. apply bind_ok in H2 as (? & _ & H). apply bind_ok in H as (? & _ & H).
        apply bind_ok in H as (? & _ & H). injection H as <-. reflexivity. }
      pose proof (do_token_sim _ _ _ _ _ _ _ _ Z (toff_next _ _ _ N) (toff_next _ _ _ N') H2 H2') as Z2.
      eapply (IH _ _ _ _ _ Z2); [| |exact H|exact H']; rewrite P, Nat.add_1_r; auto.
  Qed.

  Lemma eat_n_sim : forall n s s' s1 s1', ssim s s' ->
    eat_n_trivias t toks n s = Ok s1 -> eat_n_trivias t' toks' n s' = Ok s1' -> ssim s1 s1'.
  Proof.
    induction n as [|n IH]; intros s s' s1 s1' Z H H'; cbn [eat_n_trivias] in *; [congruence|].
    apply bind_ok in H as (x & N & H). apply bind_ok in H' as (x' & N' & H').
    apply bind_ok in H as (? & _ & H). apply bind_ok in H' as (? & _ & H').
    apply bind_ok in H as (s2 & H2 & H). apply bind_ok in H' as (s2' & H2' & H').
    rewrite (z_pos _ _ Z) in N'.
    assert (M : nth_error toks (sk_token_pos s) = Some x) by (destruct (nth_error toks _); [injection N as <-; reflexivity|discriminate]).
    assert (M' : nth_error toks' (sk_token_pos s) = Some x') by (destruct (nth_error toks' _); [injection N' as <-; reflexivity|discriminate]).
    destruct (kinds_nth _ _ M) as (y & My & K). rewrite M' in My. injection My as <-. rewrite K in H2'.
    eapply IH; [|exact H|exact H'].
    exact (do_token_sim _ _ _ _ _ _ _ _ Z (toff_next _ _ _ M) (toff_next _ _ _ M') H2 H2').
  Qed.

  Lemma finish_sim s s' b b' : ssim s s' -> b_finish (sk_inner s) = Ok b -> b_finish (sk_inner s') = Ok b' ->
    b_parents b' = b_parents b /\ same_shapes (b_children b) (b_children b').
  Proof.
    intros [] H H'. unfold b_finish in *. rewrite z_parents0 in H'.
    destruct (b_parents (sk_inner s)) as [|[k n] ps]; [discriminate|].
    injection H as <-. injection H' as <-. cbn [b_parents b_children]. split; [reflexivity|].
    apply shapes_app; [apply shapes_firstn; auto|]. constructor; [|constructor]. constructor. apply shapes_skipn. auto.
  Qed.

  Lemma flush_sim s s' s1 s1' : ssim s s' -> flush s = Ok s1 -> flush s' = Ok s1' -> ssim s1 s1'.
  Proof.
    intros Z H H'. pose proof Z as []. unfold flush in *. rewrite z_state0 in H'.
    destruct (sk_state s).
    - injection H as <-. injection H' as <-. constructor; auto.
    - injection H as <-. injection H' as <-. constructor; auto.
    - apply bind_ok in H as (b & B & H). apply bind_ok in H' as (b' & B' & H').
      destruct (finish_sim _ _ _ _ Z B B') as [P C].
      injection H as <-. injection H' as <-. constructor; auto.
  Qed.

  Lemma count_kinds l : forall l', map t_kind l = map t_kind l' -> count_trivias l = count_trivias l'.
  Proof.
    induction l as [|x l IH]; intros [|y l'] E; try discriminate; [reflexivity|].
    cbn [map] in E. injection E as E1 E2. cbn [count_trivias]. rewrite E1, (IH _ E2). reflexivity.
  Qed.
  Lemma skipn_kinds i : map t_kind (skipn i toks) = map t_kind (skipn i toks').
  Proof. rewrite <- !skipn_map, Hk. reflexivity. Qed.

  Lemma call_sim s s' c s1 s1' : ssim s s' -> sink_call1 t toks s c = Ok s1 -> sink_call1 t' toks' s' c = Ok s1' -> ssim s1 s1'.
  Proof.
    intros Z H H'. destruct c as [k| |k n|msg]; cbn [sink_call1] in *.
    - unfold sink_start_node in *. rewrite (z_state _ _ Z) in H'. destruct (sk_state s).
      + pose proof Z as []. injection H as <-. injection H' as <-.
        constructor; cbn [with_state with_inner sk_token_pos sk_text_pos sk_state sk_inner sk_errors b_start b_parents b_children]; auto.
        rewrite (shapes_length _ _ z_children0), z_parents0. reflexivity.
      + apply bind_ok in H as (s2 & F & H). apply bind_ok in H' as (s2' & F' & H').
        pose proof (flush_sim _ _ _ _ Z F F') as Z2.
        apply bind_ok in H as (? & _ & H). apply bind_ok in H' as (? & _ & H').
        apply bind_ok in H as (s3 & E & H). apply bind_ok in H' as (s3' & E' & H').
        rewrite (z_pos _ _ Z2), <- (count_kinds _ _ (skipn_kinds _)) in E'.
        pose proof (eat_n_sim _ _ _ _ _ Z2 E E') as []. injection H as <-. injection H' as <-.
        constructor; cbn [with_state with_inner sk_token_pos sk_text_pos sk_state sk_inner sk_errors b_start b_parents b_children]; auto.
        rewrite (shapes_length _ _ z_children0), z_parents0. reflexivity.
      + apply bind_ok in H as (s2 & F & H). apply bind_ok in H' as (s2' & F' & H').
        pose proof (flush_sim _ _ _ _ Z F F') as Z2.
        apply bind_ok in H as (? & _ & H). apply bind_ok in H' as (? & _ & H').
        apply bind_ok in H as (s3 & E & H). apply bind_ok in H' as (s3' & E' & H').
        rewrite (z_pos _ _ Z2), <- (count_kinds _ _ (skipn_kinds _)) in E'.
        pose proof (eat_n_sim _ _ _ _ _ Z2 E E') as []. injection H as <-. injection H' as <-.
        constructor; cbn [with_state with_inner sk_token_pos sk_text_pos sk_state sk_inner sk_errors b_start b_parents b_children]; auto.
        rewrite (shapes_length _ _ z_children0), z_parents0. reflexivity.
    - unfold sink_finish_node in *. rewrite (z_state _ _ Z) in H'. pose proof Z as []. destruct (sk_state s); [discriminate| |].
      + injection H as <-. injection H' as <-. constructor; auto.
      + apply bind_ok in H as (b & B & H). apply bind_ok in H' as (b' & B' & H').
        destruct (finish_sim _ _ _ _ Z B B') as [P C].
        injection H as <-. injection H' as <-. constructor; auto.
    - assert (G : forall s s' s1 s1', ssim s s' ->
        (let! s2 := flush s in
         let! s3 := (if Nat.eqb (sk_token_pos s2) 0 then Ok s2 else eat_trivias t toks s2) in
         let! _ := (if Nat.leb (sk_token_pos s3 + n) (length toks) then Ok tt else Panic PIndex) in
         let! len := sum_len (firstn n (skipn (sk_token_pos s3) toks)) in do_token t s3 k len n) = Ok s1 ->
        (let! s2 := flush s' in
         let! s3 := (if Nat.eqb (sk_token_pos s2) 0 then Ok s2 else eat_trivias t' toks' s2) in
         let! _ := (if Nat.leb (sk_token_pos s3 + n) (length toks') then Ok tt else Panic PIndex) in
         let! len := sum_len (firstn n (skipn (sk_token_pos s3) toks')) in do_token t' s3 k len n) = Ok s1' -> ssim s1 s1').
      { clear - Hk. intros s s' s1 s1' Z H H'.
        apply bind_ok in H as (s2 & F & H). apply bind_ok in H' as (s2' & F' & H').
        pose proof (flush_sim _ _ _ _ Z F F') as Z2.
        apply bind_ok in H as (s3 & E & H). apply bind_ok in H' as (s3' & E' & H').
        assert (Z3 : ssim s3 s3').
        { rewrite (z_pos _ _ Z2) in E'. destruct (Nat.eqb _ 0); [injection E as <-; injection E' as <-; exact Z2|].
          unfold eat_trivias in *. rewrite (z_pos _ _ Z2) in E'. eapply eat_sim; eauto. }
        apply bind_ok in H as (? & _ & H). apply bind_ok in H' as (? & _ & H').
        apply bind_ok in H as (len & L & H). apply bind_ok in H' as (len' & L' & H').
        rewrite (z_pos _ _ Z3) in L'. apply sum_len_val in L. apply sum_len_val in L'.
        eapply do_token_sim; [exact Z3| | |exact H|exact H']; subst; apply toff_plus. }
      unfold sink_token in *. rewrite (z_state _ _ Z) in H'.
      destruct (sk_state s); [discriminate| |]; exact (G _ _ _ _ Z H H').
    - pose proof Z as []. injection H as <-. injection H' as <-. unfold sink_error.
      constructor; cbn [sk_token_pos sk_text_pos sk_state sk_inner sk_errors]; auto.
      apply Forall2_app; [auto|]. constructor; [|constructor]. split; [reflexivity|]. cbn [se_pos]. eauto.
  Qed.

  Lemma sink_run_sim cs : forall s s' s1 s1', ssim s s' ->
    sink_run t toks s cs = Ok s1 -> sink_run t' toks' s' cs = Ok s1' -> ssim s1 s1'.
  Proof.
    induction cs as [|c cs IH]; intros s s' s1 s1' Z H H'; cbn [sink_run] in *; [congruence|].
    apply bind_ok in H as (s2 & C & H). apply bind_ok in H' as (s2' & C' & H').
    eapply IH; [|exact H|exact H']. eapply call_sim; eauto.
  Qed.

  Lemma sink_finish_sim s s' g errs g' errs' : ssim s s' ->
    sink_finish t toks s = Ok (g, errs) -> sink_finish t' toks' s' = Ok (g', errs') ->
    same_shape g g' /\ Forall2 err_sim errs errs'.
  Proof.
    intros Z H H'. unfold sink_finish in *. rewrite (z_state _ _ Z) in H'. destruct (sk_state s) eqn:St; try discriminate.
    apply bind_ok in H as (s2 & E & H). apply bind_ok in H' as (s2' & E' & H').
    assert (Z1 : ssim (with_state s Normal) (with_state s' Normal)) by (destruct Z; constructor; auto).
    unfold eat_trivias in *. rewrite (z_pos _ _ Z1) in E'.
    pose proof (eat_sim _ _ _ _ _ _ Z1 eq_refl eq_refl E E') as Z2.
    apply bind_ok in H as (b & B & H). apply bind_ok in H' as (b' & B' & H').
    destruct (finish_sim _ _ _ _ Z2 B B') as [_ C].
    apply bind_ok in H as (x & D & H). apply bind_ok in H' as (x' & D' & H').
    injection H as <- <-. injection H' as <- <-. split; [|exact (z_errors _ _ Z2)].
    unfold b_done in *.
    destruct (b_children b) as [|[k cs|? ?] [|? ?]]; try discriminate. injection D as <-.
    destruct (b_children b') as [|[k' cs'|? ?] [|? ?]]; try discriminate. injection D' as <-.
    inversion C; subst. assumption.
  Qed.
End Step.

(** ** The whole parse *)
Lemma stream_find' k w rest ws : (k = BYTE_STRING -> ascii w) ->
  lexeme k w -> longest_lexeme (w ++ rest) w -> token_stream rest ws ->
  find_token (w ++ rest) = Ok (k, tlen w).
Proof.
  intros A L M S.
  assert (Hne : w ++ rest <> []).
  { pose proof (lexeme_nonempty _ _ L). destruct w; [congruence|discriminate]. }
  destruct (find_token (w ++ rest)) as [[k' n]| |] eqn:F.
  - destruct (find_token_spec _ _ _ F Hne) as (w' & [[r' E] M'] & L' & Hn).
    destruct M as [_ M].
    assert (length w' = length w).
    { pose proof (M _ _ _ E L'). pose proof (M' _ _ _ eq_refl L). lia. }
    assert (w' = w).
    { clear - E H. revert w' E H. induction w as [|c w IH]; intros [|c' w'] E H; cbn in *; try lia; [reflexivity|].
      injection E as -> E. f_equal. apply IH; [exact E|lia]. }
    subst w'. pose proof (lexeme_kind_unique _ _ _ L' L) as <-.
    destruct Hn as [->|[K ->]]; [reflexivity|]. rewrite tlen_ascii by auto. reflexivity.
  - exfalso. destruct (find_token_panics (w ++ rest)) as [_ [[St B]|[_ N]]].
    + intros k' n' E. congruence.
    + destruct St as (p & r & Hp & E).
      assert (Hw : w = [p]).
      { destruct (lexeme_kclass _ _ L) as (c & r' & -> & Fc). cbn [app] in E. injection E as -> E.
        destruct Fc as [K X|K X|K X Y|X Y K|K X [q Y]|X K]; try classes.
        - exfalso. apply (B (p :: r') rest eq_refl). rewrite <- K. exact L.
        - destruct r' as [|x r']; [reflexivity|]. exfalso. cbn [app] in E. injection E as -> E.
          eapply (word_no_quote _ p r' Y). reflexivity. }
      subst w. cbn [app] in E. injection E as ->.
      inversion S as [|k2 w2 rest2 ws2 L2 _ _ E2]; subst.
      apply (quote_no_lexeme r k2 w2 rest2); auto.
    + exact (N _ _ _ eq_refl L).
  - exfalso. exact (find_token_no_fuel _ F).
Qed.

Lemma stream_steps' t ws : token_stream t ws -> ascii_literals ws -> steps t ws [] /\ Forall real ws.
Proof.
  induction 1 as [|k w rest ws L M S IH]; intros A; [split; constructor|].
  inversion A as [|? ? A1 A2]; subst. destruct (IH A2) as [St R]. split.
  - constructor; [|exact St]. eapply stream_find'; eauto.
  - constructor; [|exact R]. exact (lexeme_not_eof _ _ L).
Qed.

Lemma toff_start t ws i : pieces ws = t -> tlen t < u32_bound ->
  toff (map tok_of ws ++ [token_new EOF 0]) i = token_start ws (Nat.min i (length ws)).
Proof.
  intros E Hs. rewrite tok_of_small by (rewrite E; exact Hs). clear E Hs t. unfold toff, token_start.
  revert i. induction ws as [|[k w] ws IH]; intros i.
  - cbn [map app]. destruct i as [|[|i]]; reflexivity.
  - destruct i as [|i]; [reflexivity|]. cbn [map app firstn length Nat.min concat snd]. rewrite tlen_app, <- IH. reflexivity.
Qed.

Lemma forall2_impl {A B} (P Q : A -> B -> Prop) l l' : (forall a b, P a b -> Q a b) -> Forall2 P l l' -> Forall2 Q l l'.
Proof. intros H. induction 1; constructor; auto. Qed.

Lemma shape_main t t' ws ws' : tlen t < u32_bound -> tlen t' < u32_bound ->
  token_stream t ws -> token_stream t' ws' -> ascii_literals ws -> ascii_literals ws' -> Forall2 alike ws ws' ->
  same_outcome ws ws' (parse_text t) (parse_text t').
Proof.
  intros Hs Hs' T T' A A' K.
  destruct (stream_steps' _ _ T A) as [S R]. destruct (stream_steps' _ _ T' A') as [S' R'].
  destruct (parser_same _ _ _ _ S S' R R' K) as (lx & lx' & N & N' & P).
  unfold parse_text. rewrite N, N'. cbn [bind].
  destruct (parse_with_lexer lx) as [[evs toks]|w|], (parse_with_lexer lx') as [[evs' toks']|w'|]; try contradiction; [|exact P].
  destruct P as (<- & (f & gs & P) & (f' & gs' & P')). cbn [bind].
  destruct (build_ok _ _ _ _ _ Hs P) as (g & errs & B & _).
  destruct (build_ok _ _ _ _ _ Hs' P') as (g' & errs' & B' & _).
  rewrite B, B'.
  assert (U : forall t ws gs, steps t ws [] -> Forall real ws -> steps t (ungroup gs) [] -> Forall group_ok gs -> ungroup gs = ws).
  { clear. intros t ws gs S R S' G. destruct (steps_split _ _ _ S' _ S) as (r & E & Sr).
    - eapply Forall_impl; [|apply ungroup_no_eof; exact G]. auto.
    - destruct (steps_nil_pieces _ _ Sr) as [_ F]. destruct r as [|q r]; [rewrite app_nil_r in E; auto|].
      exfalso. rewrite E in R. apply Forall_app in R as [_ R]. inversion R; inversion F; subst.
      match goal with H : real (EOF, []) |- _ => apply H; reflexivity end. }
  pose proof (U _ _ _ S R (p_steps _ _ _ _ _ P) (p_groups _ _ _ _ _ P)) as E1.
  pose proof (U _ _ _ S' R' (p_steps _ _ _ _ _ P') (p_groups _ _ _ _ _ P')) as E2.
  pose proof (p_toks _ _ _ _ _ P) as Tk. pose proof (p_toks _ _ _ _ _ P') as Tk'. rewrite E1 in Tk. rewrite E2 in Tk'.
  assert (Hk : map t_kind toks = map t_kind toks').
  { rewrite Tk, Tk', !map_app, !map_map. cbn [map]. f_equal. clear - K.
    induction K as [|p q l l' [E _] _ IH]; [reflexivity|]. cbn [map]. rewrite IH. unfold tok_of. cbn. rewrite E. reflexivity. }
  apply bind_ok in B as (calls & C & B). rewrite C in B'. cbn [bind] in B'.
  apply bind_ok in B as (s & Rn & Fn). apply bind_ok in B' as (s' & Rn' & Fn').
  assert (Z0 : ssim toks toks' sink_new sink_new).
  { constructor; try reflexivity; constructor. }
  pose proof (sink_run_sim t t' toks toks' Hk _ _ _ _ _ Z0 Rn Rn') as Z.
  destruct (sink_finish_sim t t' toks toks' Hk _ _ _ _ _ _ Z Fn Fn') as [Sh Er].
  cbn [same_outcome]. split; [exact Sh|].
  eapply forall2_impl; [|exact Er]. intros e e' [Em (i & H1 & H2)]. split; [exact Em|].
  exists (Nat.min i (length ws)). split; [lia|]. rewrite H1, H2, Tk, Tk'.
  assert (L : length ws = length ws') by (clear - K; induction K; cbn; congruence).
  split; [|rewrite L].
  - apply (toff_start t); [rewrite <- E1; apply (p_text _ _ _ _ _ P)|exact Hs].
  - apply (toff_start t'); [rewrite <- E2; apply (p_text _ _ _ _ _ P')|exact Hs'].
Qed.
