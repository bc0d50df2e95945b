(** The phrases of LenientSpec.v are unfinished programs without missing parts. *)
From Coq Require Import String.
From Verif Require Import Base BaseProofs Kinds KindsProofs LexSpec Lexer LexerRuns LexerProofs LexerStateProofs
  Parser Grammar Sink TreeSpec GreenSpec ParserLogic SinkProofs ParseProofs SyntaxSpec ShapeProofs AcceptRules AcceptProofs AcceptTop LenientSpec LenientLogic LenientTop
  GapSpec GapRules GapPhrases GapTop.
Local Open Scope N_scope.

(** ** A phrase of the grammar is a phrase with gaps *)
Lemma parted_or (P Q : kind -> Prop) ss : parted P ss -> parted Q ss -> parted (fun k => P k \/ Q k) ss.
Proof. intros A B k r E [X|X]; [exact (A k r E X)|exact (B k r E X)]. Qed.
Lemma first_not (k : kind) H f : AcceptRules.starts H f -> ~ In k H -> parted (fun x => x = k) f.
Proof. intros (c & r & E & I) N c' r' E' ->. rewrite E in E'. injection E' as <- _. exact (N I). Qed.
Lemma first_cons (T : kind -> Prop) x f : leaves x <> [] -> parted T [x] -> parted T (x :: f).
Proof.
  intros N H k r E. destruct (leaves x) as [|k' r'] eqn:L; [contradiction N; reflexivity|]. cbn [flat_map] in E. rewrite L in E.
  injection E as -> _. apply (H k r'). cbn [flat_map]. rewrite L. apply app_nil_r.
Qed.

Lemma exact_gap : forall x f, exact x f -> gap x f /\ (x = Stmts -> parted (fun k => k = SEMICOLON) f).
Proof.
  fix IH 3. intros x f H. destruct H.
  all: repeat match goal with H : accepts _ _ |- _ => apply IH in H as [H ?] end.
  all: repeat match goal with H : _ = Stmts -> _ |- _ => first [specialize (H eq_refl)|clear H] end.
  all: try (split; [|intros X; discriminate X]).
  all: try solve [econstructor; eauto].
  all: try solve [do 2 (econstructor; eauto)].
  - apply h_address; [apply h_address_of; exact H|]. apply h_modules_of; [exact H0|constructor].
  - split; [constructor|]. intros _ k r E. discriminate E.
  - pose proof (gap_head _ _ H ltac:(discriminate) ltac:(discriminate) ltac:(discriminate)) as S. cbn [heads] in S. split.
    + match goal with H : opt_semi _ |- _ => destruct H as [-> | ->] end; [|apply h_stmts_expr; assumption].
      apply h_stmts_open; [assumption| |assumption]. apply parted_or; auto.
    + intros _. apply (first_not SEMICOLON H_expr); [|cbn; intuition discriminate]. apply starts_cons, starts_node, starts_cons, S.
  - split.
    + match goal with H : opt_semi _ |- _ => destruct H as [-> | ->] end; [|apply h_stmts_let; assumption].
      rewrite app_nil_r. apply h_stmts_let_open; [assumption| |assumption]. apply parted_or; auto.
    + intros _. match goal with H : gap (Core Let_) _ |- _ => inversion H; subst end.
      intros k r E. cbn in E. injection E as <- _. discriminate.
  - apply h_paren. match goal with S : separate _, F : Forall _ _ |- _ => revert S; induction F as [|e es He _ IHes] end; cbn [separate]; intros S; [constructor|].
    destruct S as [S1 S2]. apply h_parens; [exact (proj1 (IH _ _ He))|exact S1|exact (IHes S2)].
Qed.

(** ** Nothing is missing *)
Fixpoint whole (t : tree) : bool :=
  match t with
  | TNode k cs => negb (kind_eqb k ERROR) && forallb whole cs
  | TTok _ => true
  | TErr _ => false
  end.
Lemma accepts_whole plain : forall x f, @accepts plain x f -> forallb whole f = true.
Proof.
  fix IH 3. intros x f H. destruct H.
  all: repeat match goal with H : accepts _ _ |- _ => apply IH in H end.
  all: try match goal with H : separate _ |- _ => clear H end.
  all: try match goal with H : Forall _ ?es |- _ =>
    assert (forallb whole es = true) by
      (induction H as [|e es He Hes IHes]; [reflexivity|]; apply IH in He; cbn [forallb] in *; rewrite andb_true_r in He;
       rewrite He, IHes; reflexivity); clear H end.
  all: cbn [forallb whole] in *; rewrite ?forallb_app in *; cbn [forallb whole] in *;
    rewrite ?andb_true_iff in *; repeat match goal with H : _ /\ _ |- _ => destruct H end;
    repeat split; try assumption; try reflexivity.
  all: rewrite ?forallb_app; cbn [forallb whole]; rewrite ?andb_true_iff in *; repeat split; try assumption; try reflexivity.
  all: try match goal with H : opt_semi _ |- _ => destruct H as [-> | ->]; reflexivity end.
Qed.
Lemma whole_no_marks x : whole x = true ->
  row x = map (fun k => inl (token_kind k)) (leaves x) /\ unmarked x = [x] /\ complaints x = [].
Proof.
  induction x as [k cs IH|k|m] using tree_ind2; cbn [whole]; intros H; [|auto|discriminate H].
  apply andb_true_iff in H as [K H]. apply negb_true_iff in K.
  assert (C : flat_map row cs = map (fun k => inl (token_kind k)) (flat_map leaves cs) /\
    flat_map unmarked cs = cs /\ flat_map complaints cs = []).
  { clear K. induction IH as [|c cs Hc _ IHc]; [auto|]. cbn [forallb] in H. apply andb_true_iff in H as [H1 H2].
    destruct (Hc H1) as (A & B & D). destruct (IHc H2) as (A' & B' & D'). cbn [flat_map].
    rewrite A, B, D, A', B', D', map_app. auto. }
  destruct C as (A & B & D). cbn [leaves unmarked complaints]. rewrite B, D. split; [|auto].
  destruct k; try exact A. discriminate K.
Qed.
Lemma wholes_no_marks f : forallb whole f = true ->
  flat_map row f = map (fun k => inl (token_kind k)) (flat_map leaves f) /\ flat_map unmarked f = f /\ flat_map complaints f = [].
Proof.
  induction f as [|c f IH]; intros H; [auto|]. cbn [forallb] in H. apply andb_true_iff in H as [H1 H2].
  destruct (whole_no_marks _ H1) as (A & B & D). destruct (IH H2) as (A' & B' & D'). cbn [flat_map].
  rewrite A, B, D, A', B', D', map_app. auto.
Qed.
Lemma tokens_recover ks k : recovers (map (fun k => inl (token_kind k)) ks) k.
Proof. induction ks as [|x ks IH]; [exact I|exact IH]. Qed.

(** ** There are fewer places without a separator than tokens *)
Definition filled (c : tree) : bool := match leaves c with [] => false | _ => true end.
Fixpoint stuffed (t : tree) : bool :=
  match t with
  | TNode k cs => forallb stuffed cs && match k with BLOCK_EXPR | PAREN_EXPR => forallb filled cs | _ => true end
  | _ => true
  end.
Lemma joints_le ss : (joints ss <= length ss)%nat.
Proof.
  induction ss as [|x ss IH]; [auto|]. cbn [joints length]. destruct (unended x); [|lia]. destruct ss as [|[]]; cbn [length] in *; lia.
Qed.
Lemma stuffed_loose x : stuffed x = true -> (loose1 x <= length (leaves x) - 1)%nat.
Proof.
  induction x as [k cs IH|k|m] using tree_ind2; cbn [stuffed]; intros H; [|cbn; lia..].
  apply andb_true_iff in H as [H K]. rewrite loose_node. cbn [leaves].
  assert (A : (loose cs <= length (flat_map leaves cs) - 1)%nat /\
              (forallb filled cs = true -> loose cs + length cs <= length (flat_map leaves cs))%nat).
  { clear K. induction IH as [|c cs Hc _ IHc]; [cbn; auto|]. cbn [forallb] in H. apply andb_true_iff in H as [H1 H2].
    specialize (Hc H1). destruct (IHc H2) as [A1 A2]. unfold loose in *. cbn [flat_map fold_right length forallb].
    rewrite app_length. split; [lia|]. intros F. apply andb_true_iff in F as [F1 F2]. specialize (A2 F2).
    unfold filled in F1. destruct (leaves c); [discriminate F1|]. cbn [length] in *. lia. }
  destruct A as [A1 A2].
  assert (B : unseparated k cs = O \/ (unseparated k cs <= length cs - 1)%nat /\ forallb filled cs = true).
  { destruct k; try (left; reflexivity); right; (split; [|exact K]); cbn [unseparated]; [|lia].
    destruct cs as [|c cs]; [auto|]. cbn [tl length]. pose proof (joints_le cs). lia. }
  destruct B as [-> |[B F]]; [lia|]. specialize (A2 F). lia.
Qed.
Lemma stuffed_forest f : forallb stuffed f = true -> (loose f <= length (flat_map leaves f))%nat.
Proof.
  unfold loose. induction f as [|c f IH]; intros H; [auto|]. cbn [forallb] in H. apply andb_true_iff in H as [H1 H2].
  apply stuffed_loose in H1. specialize (IH H2). cbn [fold_right flat_map]. rewrite app_length. lia.
Qed.

Lemma starts_filled H e : AcceptRules.starts H [e] -> filled e = true.
Proof. intros (k & r & E & _). cbn [flat_map] in E. rewrite app_nil_r in E. unfold filled. rewrite E. reflexivity. Qed.
Lemma expr_filled p e : exact (Expr p) [e] -> filled e = true.
Proof.
  intros H. apply exact_gap in H as [H _].
  eapply starts_filled, (gap_head _ _ H); discriminate.
Qed.
Lemma node_filled k c cs : filled c = true -> filled (TNode k (c :: cs)) = true.
Proof. unfold filled. cbn [leaves flat_map]. destruct (leaves c); [discriminate|reflexivity]. Qed.
Lemma exact_stuffed : forall x f, exact x f -> forallb stuffed f = true /\ (x = Stmts -> forallb filled f = true).
Proof.
  fix IH 3. intros x f H. destruct H.
  all: try match goal with H : exact Let_ ?l |- _ => assert (exists r, l = TTok LET_KW :: r) by (inversion H; eauto) end.
  all: repeat match goal with H : exact (Expr _) [?e] |- _ => lazymatch goal with F : filled e = true |- _ => fail | _ => pose proof (expr_filled _ _ H) end end.
  all: repeat match goal with H : accepts _ _ |- _ => apply IH in H as [H ?] end.
  all: repeat match goal with H : _ = Stmts -> _ |- _ => first [specialize (H eq_refl)|clear H] end.
  all: try match goal with H : separate _ |- _ => clear H end.
  all: try match goal with H : Forall _ ?es |- _ =>
    assert (forallb stuffed es = true /\ forallb filled es = true) by
      (induction H as [|e es He Hes IHes]; [auto|]; pose proof (expr_filled _ _ He) as Hf; apply IH in He as [He _];
       destruct IHes; cbn [forallb] in *; rewrite andb_true_r in He;
       rewrite He, Hf; auto); clear H end.
  all: split; try (intros X; discriminate X).
  all: try (intros _).
  all: repeat match goal with H : exists r, _ = _ |- _ => destruct H as [? ->] end.
  all: cbn [forallb stuffed app] in *; rewrite ?forallb_app in *; cbn [forallb stuffed] in *;
    rewrite ?andb_true_iff in *; repeat match goal with H : _ /\ _ |- _ => destruct H end;
    repeat split; try assumption; try reflexivity.
  all: rewrite ?forallb_app; cbn [forallb stuffed]; rewrite ?andb_true_iff in *; repeat split; try assumption; try reflexivity.
  all: try match goal with H : opt_semi _ |- _ => destruct H as [-> | ->]; reflexivity end.
  all: apply node_filled; assumption.
Qed.

(** ** The layout *)
Lemma steps_real t l r : steps t l r -> r <> [] -> Forall real l.
Proof.
  induction 1 as [|k w t l r F S IH]; intros N; constructor; [|auto].
  unfold real. cbn [fst]. intros ->. apply find_token_eof in F as [E _]. apply app_eq_nil in E as [-> ->].
  apply steps_nil_pieces in S as [-> _]. apply N. reflexivity.
Qed.
Lemma plain_layout t ws : steps t ws [] -> ~ comment_in_the_way ws -> uncommented t.
Proof.
  intros S N a p b w c rest n H P B C F. apply N.
  assert (R : rest <> []) by (intros ->; discriminate F).
  destruct (steps_split _ _ _ H _ S (steps_real _ _ _ H R)) as (rem & -> & Sr).
  pose proof (find_cur _ _ _ _ Sr F) as K. destruct rem as [|q d]; [discriminate K|]. cbn [cur_kind] in K.
  exists a, p, b, w, c, q, d. split; [|split; [left; exact P|split; [exact B|split; [exact C|left; symmetry; exact K]]]].
  rewrite <- app_assoc. cbn [app]. rewrite <- app_assoc. reflexivity.
Qed.

(** ** Both directions *)
Lemma stuffed_extent f : exact File f -> extent f <= N.of_nat (2 * length (flat_map leaves f)).
Proof.
  intros H. pose proof (stuffed_forest f (proj1 (exact_stuffed _ _ H))) as L.
  destruct (wholes_no_marks f (accepts_whole _ _ _ H)) as (_ & _ & C). unfold extent. rewrite C. cbn [length]. lia.
Qed.
Lemma exact_accepted t ws f : token_stream t ws -> ascii_strings t -> tlen t < u32_bound -> extent f <= 1996 ->
  ~ comment_in_the_way ws -> ~ glued ws -> exact File f -> Forall2 stands_for (flat_map leaves f) (proper ws) ->
  exists g, parse_text t = Ok (g, []) /\ strip g = [TNode SOURCE_FILE f].
Proof.
  intros St A Hs L NC NG H F. destruct (wholes_no_marks f (accepts_whole _ _ _ H)) as (R & U & C).
  destruct (unfinished_parse t f) as (g & errs & P & S & M & _); auto.
  - constructor; [exact (proj1 (exact_gap _ _ H))|exists ws; auto|]. rewrite R. apply tokens_recover.
  - rewrite U in S. rewrite C in M. destruct errs; [|discriminate M]. eauto.
Qed.
