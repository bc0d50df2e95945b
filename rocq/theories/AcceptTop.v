(** Whole files of the core language. *)
From Coq Require Import String.
From Verif Require Import Base BaseProofs Kinds KindsProofs LexSpec TokenSet Lexer LexerRuns LexerProofs LexerStateProofs
  Parser Grammar Sink TreeSpec GreenSpec ParserLogic GrammarProofs ProcessProofs SinkProofs TermProofs ParseProofs ParserTotal SyntaxSpec
  AcceptRules AcceptProofs.
Local Open Scope N_scope.

(** ** The calls to the sink determine the trees *)
Definition closing (x : list sink_call) : Prop := x = [] \/ exists y, x = SFinish :: y.

Lemma flat_inj n : forall f g x y, (length (flat f) <= n)%nat -> closing x -> closing y ->
  flat f ++ x = flat g ++ y -> f = g /\ x = y.
Proof.
  induction n as [|n IH]; intros f g x y L Cx Cy E.
  - destruct f as [|a f]; [|destruct a; cbn in L; lia].
    destruct g as [|b g]; [auto|]. destruct Cx as [-> |[x' ->]]; destruct b; discriminate E.
  - destruct f as [|a f]; destruct g as [|b g].
    + auto.
    + destruct Cx as [-> |[x' ->]]; destruct b; discriminate E.
    + destruct Cy as [-> |[x' ->]]; destruct a; discriminate E.
    + unfold flat in *. cbn [flat_map] in *.
      destruct a as [k cs|k|m]; destruct b as [k' cs'|k'|m']; cbn [flat1 app] in E; try discriminate E.
      * injection E as <- E. cbn [flat1 app length] in L. rewrite !app_length in L. cbn [length] in L.
        rewrite <- !app_assoc in E. cbn [app] in E.
        destruct (IH cs cs' (SFinish :: flat f ++ x) (SFinish :: flat g ++ y)) as [-> E2];
          [unfold flat; lia|right; eauto|right; eauto|exact E|].
        injection E2 as E2. destruct (IH f g x y) as [-> ->]; auto. unfold flat. lia.
      * injection E as <- E. cbn [flat1 app length] in L. destruct (IH f g x y) as [-> ->]; auto. unfold flat. lia.
      * injection E as <- E. cbn [flat1 app length] in L. destruct (IH f g x y) as [-> ->]; auto. unfold flat. lia.
Qed.

Lemma den_inj evs f g : den evs f -> den evs g -> f = g.
Proof.
  intros H1 H2. apply process_den in H1, H2. rewrite H1 in H2. injection H2 as E.
  apply (flat_inj (length (flat f)) f g [] []); [lia|left; reflexivity|left; reflexivity|]. rewrite !app_nil_r. exact E.
Qed.

(** ** The trees of the grammar hold no trivia and no errors *)
Fixpoint clean (x : tree) : bool :=
  match x with
  | TNode _ cs => forallb clean cs
  | TTok k => negb (is_trivia k)
  | TErr _ => false
  end.

Lemma gen_clean x f : gen x f -> forallb clean f = true.
Proof.
  induction 1; cbn [forallb clean] in *; rewrite ?forallb_app in *; cbn [forallb clean] in *;
    rewrite ?andb_true_iff in *; repeat match goal with H : _ /\ _ |- _ => destruct H end;
    repeat split; try assumption; try reflexivity.
  all: rewrite ?forallb_app; cbn [forallb clean];
    rewrite ?andb_true_iff in *; repeat split; try assumption; try reflexivity.
  all: try (destruct op; try discriminate; reflexivity).
  all: try (cbn in H; intuition (subst; reflexivity)).
Qed.

Lemma clean_strip x : clean x = true -> strip_tree x = [x] /\ errs1 x = [].
Proof.
  induction x as [k cs IH|k|m] using tree_ind2; intros C; cbn [clean] in C; [| |discriminate].
  - cbn [strip_tree errs1]. rewrite forallb_forall in C.
    assert (X : flat_map strip_tree cs = cs /\ flat_map errs1 cs = []).
    { induction IH as [|x cs H _ IHcs]; [split; reflexivity|].
      destruct (H (C x (or_introl eq_refl))) as [H1 H2]. destruct IHcs as [I1 I2]; [intros y Hy; apply C; right; exact Hy|].
      cbn [flat_map]. rewrite H1, H2, I1, I2. split; reflexivity. }
    destruct X as [-> ->]. split; reflexivity.
  - cbn. destruct (is_trivia k); [discriminate|]. split; reflexivity.
Qed.
Lemma clean_forest f : forallb clean f = true -> strip_forest f = f /\ flat_map errs1 f = [].
Proof.
  induction f as [|x f IH]; intros C; [split; reflexivity|]. cbn [forallb] in C. apply andb_true_iff in C as [C1 C2].
  destruct (clean_strip _ C1) as [H1 H2]. destruct (IH C2) as [H3 H4]. unfold strip_forest in *. cbn [flat_map].
  rewrite H1, H2, H3, H4. split; reflexivity.
Qed.

Lemma Forall2_len {A B} (R : A -> B -> Prop) l m : Forall2 R l m -> length l = length m.
Proof. induction 1; cbn; auto. Qed.

(** ** Grouping the tokens *)
Lemma lexeme_not_eof w : ~ lexeme EOF w.
Proof.
  intros H. inversion H as [| | | | | |w' k Hin| |w' k Hin]; subst; cbn in Hin;
    repeat match goal with H : _ \/ _ |- _ => destruct H as [H|H]; [discriminate H|] end; destruct Hin.
Qed.
Lemma stream_no_eof t ws : token_stream t ws -> Forall (fun p => fst p <> EOF) ws.
Proof. induction 1; constructor; [|assumption]. cbn. intros ->. eapply lexeme_not_eof; eauto. Qed.

Lemma grouping ws : Forall (fun p => fst p <> EOF) ws -> exists lead gs, ws = lead ++ ungroup gs /\
  Forall trivia_piece lead /\ Forall group_ok gs /\ Forall solid gs /\ map fst gs = proper ws.
Proof.
  induction ws as [|p ws IH]; intros N.
  - exists [], []. repeat (split; [constructor|]). reflexivity.
  - inversion N as [|? ? N1 N2]; subst. destruct (IH N2) as (lead & gs & -> & T & G & S & E).
    unfold proper in *. cbn [filter]. destruct (is_trivia (fst p)) eqn:K; cbn [negb].
    + exists (p :: lead), gs. cbn [app]. split; [reflexivity|]. split; [constructor; auto|]. auto.
    + exists [], ((p, lead) :: gs). cbn [app ungroup flat_map map fst snd].
      split; [reflexivity|]. split; [constructor|]. split; [constructor; [split; auto|exact G]|].
      split; [constructor; [exact K|exact S]|]. f_equal. exact E.
Qed.

Lemma has_comment_split (g : group) : has_comment g -> exists b w c, snd g = b ++ (COMMENT, w) :: c.
Proof.
  intros H. apply Exists_exists in H as ([k w] & Hin & E). cbn in E. subst k. apply in_split in Hin as (b & c & E). eauto.
Qed.

Lemma group_layout gs : forall pre, Forall group_ok gs ->
  ~ comment_in_the_way (pre ++ ungroup gs) -> ~ glued (pre ++ ungroup gs) -> layout gs.
Proof.
  induction gs as [|g gs IH]; intros pre G NC NG; [exact I|]. inversion G as [|? ? [G1 G2] G3]; subst.
  cbn [layout]. split; [|split].
  - intros K C O. apply NC. destruct (has_comment_split _ C) as (b & w & c & E).
    destruct gs as [|h gs]; [destruct O as [O|[O|O]]; discriminate O|]. cbn [gcur] in O.
    exists pre, (fst g), b, w, c, (fst h), (snd h ++ ungroup gs). split.
    + rewrite !ungroup_cons, E. cbn [app]. rewrite <- !app_assoc. reflexivity.
    + split; [exact K|]. rewrite E in G1. apply Forall_app in G1 as [T1 T2]. inversion T2; subst. auto.
  - destruct gs as [|h gs]; [exact I|]. intros K1 K2 E1 E2.
    assert (X : ~ (gcur gs = L_BRACE \/ gcur gs = STAR)); [|tauto].
    intros O. apply NG. destruct gs as [|i gs]; [destruct O as [O|O]; discriminate O|]. cbn [gcur] in O.
    exists pre, (fst g), (fst h), (fst i), (snd i ++ ungroup gs). split.
    + rewrite !ungroup_cons, E1, E2. reflexivity.
    + auto.
  - apply (IH (pre ++ fst g :: snd g)); [exact G3| |]; rewrite <- app_assoc; rewrite ungroup_cons in NC, NG; assumption.
Qed.

(** ** The parser *)
Lemma tw_root t f gs l kids stk sp : gen File f -> fits f gs -> sp + 5 * size gs + 15 <= 10000 ->
  tw t (call F_root) (TS gs l kids stk sp) (fun _ st => exists l sp, st = TS [] l (kids ++ f) stk sp).
Proof.
  intros G F L. pose proof (gen_stm t _ _ G) as H. cbn [stm] in H. unfold s_file, s_prog in H.
  specialize (H gs [] l kids stk sp F eq_refl L). rewrite app_nil_r in H.
  eapply tw_mono; [exact H|]. intros a st (l' & sp' & -> & _). eauto.
Qed.

(** blanks or comments in front of everything *)
Lemma tw_root_lead t f gs g l kids stk sp : gen File f -> fits f gs -> sp + 5 * size gs + 19 <= 10000 ->
  is_trivia (fst (fst g)) = true ->
  tw t (call F_root) (TS (g :: gs) l kids stk sp)
    (fun _ st => exists l sp, st = TS [] l (kids ++ TTok (fst (fst g)) :: f) stk sp).
Proof.
  intros G F L K. apply (tw_call t F_root). cbn [body]. unfold root_body.
  apply tw_bind. apply r_at; [lia|]. cbn [gcur].
  assert (N : forall k, is_trivia k = false -> kind_eqb (fst (fst g)) k = false).
  { intros k Hk. destruct (kind_eqb (fst (fst g)) k) eqn:E; [|reflexivity]. apply kind_eqb_eq in E. subst k. congruence. }
  rewrite N by reflexivity. cbv iota. apply tw_bind. apply r_at; [lia|]. cbn [gcur]. rewrite N by reflexivity.
  cbv iota. apply tw_bind. apply r_at; [lia|]. cbn [gcur]. rewrite N by reflexivity.
  cbv iota. apply tw_bind. apply r_at; [lia|]. cbn [gcur]. rewrite N by reflexivity.
  cbv iota. apply tw_bind. apply r_current. cbn [gcur]. rewrite K. apply tw_bind.
  apply r_bump_any; [intros E; rewrite E in K; discriminate|].
  eapply tw_mono; [apply (tw_root t f gs); [exact G|exact F|lia]|].
  intros a st (l' & sp' & ->). exists l', sp'. rewrite <- app_assoc. reflexivity.
Qed.

Lemma run_root t f gs lx : gen File f -> lexer_new t = Ok lx -> steps t (ungroup gs) [] ->
  Forall group_ok gs -> Forall solid (tl gs) -> layout gs ->
  (fits f gs /\ 5 * size gs <= 9985 \/ exists g gs', gs = g :: gs' /\ fits f gs' /\ 5 * size gs' <= 9981 /\ is_trivia (fst (fst g)) = true) ->
  exists n u s lead, interp (run n) root (parser_new lx) = Ok (u, s) /\
    den (ps_events s) [TNode SOURCE_FILE (lead ++ f)] /\ strip_forest lead = [] /\ flat_map errs1 lead = [].
Proof.
  intros G HL S Ok_ Sol Lay F.
  assert (R : trel t (parser_new lx) (TS gs None [] [] 0)).
  { destruct (lexer_new_inv _ _ HL) as (k & len & I).
    constructor; cbn [parser_new ps_lexer ps_events ps_steps s_toks s_last s_kids s_stack s_spent]; auto; try lia.
    - apply lay_base. constructor.
    - exact Logic.I.
    - exists [], t, len. split; [|exact S]. destruct (steps_head _ _ S) as [n Fn]. rewrite (li_cur _ _ _ _ _ _ I) in Fn.
      injection Fn as -> _. exact I. }
  assert (W : tw t root (TS gs None [] [] 0) (fun _ st => exists lead l sp,
     st = TS [] l [TNode SOURCE_FILE (lead ++ f)] [] sp /\ strip_forest lead = [] /\ flat_map errs1 lead = [])).
  { unfold root. apply tw_bind. apply r_start. intros m. apply tw_bind.
    destruct F as [[F L]|(g & gs' & -> & F & L & K)].
    - eapply tw_mono; [apply (tw_root t f gs); [exact G|exact F|lia]|]. intros a st (l & sp & ->).
      apply tw_bind. apply r_complete; [discriminate|]. intros c. apply tw_ret. exists [], (Some c), sp. auto.
    - eapply tw_mono; [apply (tw_root_lead t f gs' g); [exact G|exact F|lia|exact K]|]. intros a st (l & sp & ->).
      apply tw_bind. apply r_complete; [discriminate|]. intros c. apply tw_ret.
      exists [TTok (fst (fst g))], (Some c), sp. split; [reflexivity|]. unfold strip_forest. cbn. rewrite K. auto. }
  destruct (W _ R) as (n & u & s & st & E & R' & lead & l & sp & -> & H1 & H2).
  exists n, u, s, lead. split; [exact E|]. split; [|auto]. pose proof (q_lay _ _ _ R') as Q. cbn [s_stack s_kids] in Q.
  inversion Q; subst; assumption.
Qed.

Lemma core_parse t f : core_program t f -> ascii_strings t -> tlen t < u32_bound ->
  N.of_nat (length (flat_map leaves f)) <= 1996 ->
  exists g, parse_text t = Ok (g, []) /\ strip g = [TNode SOURCE_FILE f].
Proof.
  intros [G (ws & St & Fw & NC & NG)] A Hs L.
  pose proof (stream_steps _ _ St A) as S.
  assert (HL : exists lx, lexer_new t = Ok lx).
  { unfold lexer_new. destruct ws as [|[k w] ws].
    - inversion S; subst. eexists. reflexivity.
    - apply steps_cons_inv in S as (b & -> & F & _). rewrite F. eexists. reflexivity. }
  destruct HL as [lx HL].
  destruct (grouping _ (stream_no_eof _ _ St)) as (lead & gs & E & T & Gk & Sol & M).
  assert (F : fits f gs).
  { unfold fits. rewrite <- M in Fw. clear -Fw. remember (flat_map leaves f) as ks. clear Heqks. revert gs Fw.
    induction ks as [|k ks IH]; intros [|g gs] H; inversion H; subst; constructor; auto. }
  assert (Sz : 5 * size gs <= 9980).
  { pose proof (Forall2_len _ _ _ F) as X. unfold size. replace (length gs) with (length (flat_map leaves f)). lia. }
  assert (R : exists n u s lead, interp (run n) root (parser_new lx) = Ok (u, s) /\
    den (ps_events s) [TNode SOURCE_FILE (lead ++ f)] /\ strip_forest lead = [] /\ flat_map errs1 lead = []).
  { destruct lead as [|p lead].
    - cbn [app] in E. subst ws. apply (run_root t f gs lx G HL S Gk).
      + destruct Sol; [constructor|assumption].
      + apply (group_layout gs []); assumption.
      + left. split; [exact F|lia].
    - inversion T as [|? ? T1 T2]; subst.
      assert (Ne : fst p <> EOF). { intros X. unfold trivia_piece in T1. rewrite X in T1. discriminate. }
      apply (run_root t f ((p, lead) :: gs) lx G HL).
      + rewrite ungroup_cons. cbn [fst snd app]. exact S.
      + constructor; [split; assumption|exact Gk].
      + exact Sol.
      + apply (group_layout _ []); [constructor; [split; assumption|exact Gk]| |]; rewrite ungroup_cons; assumption.
      + right. exists (p, lead), gs. split; [reflexivity|]. split; [exact F|]. split; [lia|exact T1]. }
  destruct R as (n & u & s & ld & R & D & H1 & H2).
  pose proof (parse_ends t lx HL) as NF. unfold parse_text. rewrite HL. cbn [bind].
  unfold parse_with_lexer in *.
  pose proof (grammar_sound t lx (parse_fuel (lx_text lx)) HL) as GS.
  assert (RE : interp (run (parse_fuel (lx_text lx))) root (parser_new lx) = Ok (u, s)).
  { set (d := parse_fuel (lx_text lx)) in *. destruct (Nat.le_ge_cases n d) as [Le|Le].
    - exact (interp_le n d root _ _ Le R).
    - rewrite <- R. symmetry. apply interp_more; [intros f' s' X; apply run_more; auto|].
      intros X. rewrite X in NF. apply NF. reflexivity. }
  rewrite RE in *. cbn [bind] in *. destruct GS as (F' & gs' & P).
  destruct (build_ok _ _ _ _ _ Hs P) as (g & errs & B & O).
  pose proof (den_inj _ _ _ D (p_den _ _ _ _ _ P)) as X. injection X as <-.
  exists g. rewrite B. destruct (ro_root _ _ _ _ _ O) as (cs & -> & Sc).
  destruct (clean_forest _ (gen_clean _ _ G)) as [C1 C2].
  pose proof (ro_msgs _ _ _ _ _ O) as Ms. rewrite flat_map_app, H2, C2 in Ms.
  split.
  - apply map_eq_nil in Ms. rewrite Ms. reflexivity.
  - cbn [strip]. rewrite Sc. unfold strip_forest in *. rewrite flat_map_app, H1, C1. reflexivity.
Qed.
