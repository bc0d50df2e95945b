(** Sequences of literals and binary operators. *)
From Coq Require Import String.
From Verif Require Import Base BaseProofs Kinds KindsProofs LexSpec Lexer Parser Grammar Sink TreeSpec GreenSpec
  ParseProofs SyntaxSpec AcceptTop.
Local Open Scope N_scope.

Definition literal_kind (k : kind) : Prop := In k [TRUE_KW; FALSE_KW; INTEGER_NUMBER; BYTE_STRING].
Definition lit (k : kind) : tree := TNode LITERAL [TTok k].

(** trees of literals and operators; [p] is the least binding power at the top *)
Inductive optree : N -> tree -> Prop :=
| ot_lit p k : literal_kind k -> optree p (lit k)
| ot_bin p q l op r : prec op = Some q -> p <= q -> optree q l -> optree (q + 1) r ->
    optree p (TNode BIN_EXPR [l; TTok op; r]).

Definition power (op : kind) : N := match prec op with Some q => q | None => 0 end.
(** [e op r], regrouped *)
Fixpoint graft (e : tree) (op : kind) (x : tree) : tree :=
  match e with
  | TNode BIN_EXPR [l; TTok o; r] =>
      if power op <=? power o then TNode BIN_EXPR [e; TTok op; x] else TNode BIN_EXPR [l; TTok o; graft r op x]
  | _ => TNode BIN_EXPR [e; TTok op; x]
  end.

Lemma graft_ok p e op q k : optree p e -> prec op = Some q -> p <= q -> literal_kind k ->
  optree p (graft e op (lit k)) /\ seq_of (graft e op (lit k)) = seq_of e ++ [Operator op; Operand (lit k)].
Proof.
  intros H. induction H as [p k' Hk|p q' l o r Po Le Hl _ Hr IH]; intros Pq L K.
  - cbn [graft lit]. split; [|reflexivity]. apply (ot_bin p q); [exact Pq|exact L|constructor; exact Hk|constructor; exact K].
  - cbn [graft]. unfold power. rewrite Pq, Po. destruct (q <=? q') eqn:C.
    + split; [|cbn [seq_of]; rewrite <- ?app_assoc; reflexivity].
      apply (ot_bin p q); [exact Pq|exact L| |constructor; exact K]. apply (ot_bin q q'); auto. lia.
    + destruct (IH Pq ltac:(lia) K) as [I1 I2]. split; [apply (ot_bin p q'); auto|].
      cbn [seq_of]. rewrite I2, <- app_assoc. reflexivity.
Qed.

Definition items_of (ops : list (kind * kind)) : list item :=
  flat_map (fun p => [Operator (fst p); Operand (lit (snd p))]) ops.

Lemma sequence_tree ops : Forall (fun p => prec (fst p) <> None /\ literal_kind (snd p)) ops -> forall e, optree 1 e ->
  exists e', optree 1 e' /\ seq_of e' = seq_of e ++ items_of ops.
Proof.
  induction 1 as [|[op k] ops [H1 H2] _ IH]; intros e H.
  - exists e. split; [exact H|]. cbn. rewrite app_nil_r. reflexivity.
  - cbn [fst snd] in *. destruct (prec op) as [q|] eqn:P; [|congruence].
    destruct (graft_ok 1 e op q k H P) as [G1 G2]; [destruct op; try discriminate P; injection P as <-; lia|exact H2|].
    destruct (IH _ G1) as (e' & E1 & E2). exists e'. split; [exact E1|].
    rewrite E2, G2, <- app_assoc. reflexivity.
Qed.

Lemma optree_gen p e : optree p e -> gen (Expr p) [e].
Proof.
  induction 1 as [p k Hk|p q l op r Po Le Hl IHl Hr IHr].
  - apply g_expr_unary, g_unary_postfix, g_postfix_atom, g_literal. exact Hk.
  - eapply g_expr_bin; eauto.
Qed.
Lemma optree_binds p e : optree p e -> forall n, n <= p -> binds n e.
Proof. intros H. destruct H as [p k Hk|p q l op r Po Le Hl Hr]; intros n L; cbn; [exact I|]. exists q. split; [exact Po|lia]. Qed.
Lemma optree_grouped p e : optree p e -> grouped e.
Proof.
  induction 1 as [p k Hk|p q l op r Po Le Hl IHl Hr IHr]; [exact I|]. cbn [grouped]. split; [|auto].
  exists q. split; [exact Po|]. split; eapply optree_binds; eauto; lia.
Qed.
Definition item_leaves (i : item) : list kind := match i with Operator k => [k] | Operand x => leaves x end.
Lemma optree_leaves p e : optree p e -> leaves e = flat_map item_leaves (seq_of e).
Proof.
  induction 1 as [p k Hk|p q l op r Po Le Hl IHl Hr IHr]; [reflexivity|].
  cbn [leaves flat_map seq_of]. rewrite flat_map_app. cbn [flat_map item_leaves app]. rewrite app_nil_r, IHl, IHr. reflexivity.
Qed.

Definition kinds_of (ops : list (kind * kind)) : list kind := flat_map (fun p => [fst p; snd p]) ops.
Lemma items_leaves ops : flat_map item_leaves (items_of ops) = kinds_of ops.
Proof. unfold items_of, kinds_of. induction ops as [|[a b] ops IH]; [reflexivity|]. cbn in *. rewrite IH. reflexivity. Qed.

(** script { fun f() { ...; } } *)
Definition script_around (ss : list tree) : tree :=
  TNode SCRIPT_DEF [TTok SCRIPT_KW; TNode ITEM_LIST [TTok L_BRACE;
    TNode FUNCTION_DEF [TTok FUN_KW; TNode NAME [TTok IDENT]; TNode PARAM_LIST [TTok L_PAREN; TTok R_PAREN];
      TNode BLOCK_EXPR (TTok L_BRACE :: ss ++ [TTok R_BRACE])]; TTok R_BRACE]].
Definition script_kinds (ks : list kind) : list kind :=
  [SCRIPT_KW; L_BRACE; FUN_KW; IDENT; L_PAREN; R_PAREN; L_BRACE] ++ ks ++ [R_BRACE; R_BRACE].

Lemma script_gen ss : gen Stmts ss -> gen File [script_around ss].
Proof.
  intros H. apply g_file; [|constructor]. apply (g_script [_]). apply g_items; [|constructor]. apply g_item_fun.
  apply (g_function [] []); [constructor|constructor|]. apply g_block. exact H.
Qed.
Lemma script_leaves ss : flat_map leaves [script_around ss] = script_kinds (flat_map leaves ss).
Proof.
  cbn. rewrite !app_nil_r, flat_map_app. cbn. rewrite <- !app_assoc. reflexivity.
Qed.

(** ** Layouts that cannot go wrong *)
(** no name or number directly before a brace or colon; no [::] *)
Fixpoint safe (ks : list kind) : Prop :=
  match ks with
  | [] => True
  | k :: r => k <> COLON_COLON /\
      (k = IDENT \/ k = INTEGER_NUMBER ->
       match r with q :: _ => q <> L_BRACE /\ q <> COLON /\ q <> COLON_COLON | [] => True end) /\ safe r
  end.
Lemma safe_app a b : safe (a ++ b) -> safe b.
Proof. induction a as [|x a IH]; [auto|]. intros (_ & _ & H). auto. Qed.
Lemma proper_app a b : proper (a ++ b) = proper a ++ proper b.
Proof. apply filter_app. Qed.
Lemma proper_trivia b : Forall (fun x : kind * text => is_trivia (fst x) = true) b -> proper b = [].
Proof. induction 1 as [|x b H _ IH]; [reflexivity|]. unfold proper in *. cbn [filter]. rewrite H. exact IH. Qed.
Lemma proper_cons x ws : is_trivia (fst x) = false -> proper (x :: ws) = x :: proper ws.
Proof. intros H. unfold proper. cbn [filter]. rewrite H. reflexivity. Qed.
Lemma safe_comment ws : safe (map fst (proper ws)) -> ~ comment_in_the_way ws.
Proof.
  intros H (a & p & b & w & c & q & d & -> & P & B & C & Q). revert H.
  assert (Tp : is_trivia (fst p) = false) by (destruct P as [-> | ->]; reflexivity).
  assert (Tq : is_trivia (fst q) = false) by (destruct Q as [-> | [-> | ->]]; reflexivity).
  rewrite proper_app, proper_cons by exact Tp.
  replace (proper (b ++ (COMMENT, w) :: c ++ q :: d)) with (q :: proper d).
  2: { rewrite proper_app, (proper_trivia b B). cbn [app]. change ((COMMENT, w) :: c ++ q :: d) with ([(COMMENT, w)] ++ c ++ q :: d).
       rewrite !proper_app, (proper_trivia c C), (proper_cons q) by exact Tq. reflexivity. }
  rewrite map_app. intros H. apply safe_app in H. cbn [map] in H. destruct H as (_ & H & _). destruct (H P) as (H1 & H2 & H3).
  destruct Q as [Q|[Q|Q]]; contradiction.
Qed.
Lemma safe_in ks : safe ks -> ~ In COLON_COLON ks.
Proof. induction ks as [|k ks IH]; intros H; [auto|]. destruct H as (H1 & _ & H). intros [E|E]; [auto|apply IH; auto]. Qed.
Lemma safe_glued ws : safe (map fst (proper ws)) -> ~ glued ws.
Proof.
  intros H (a & p & q & r & b & -> & P & _). apply (safe_in _ H). apply in_map_iff. exists p. split; [exact P|].
  apply filter_In. split; [apply in_or_app; right; left; reflexivity|]. rewrite P. reflexivity.
Qed.

Lemma stands_map ks ws : map fst ws = ks -> ~ In DIEM_ADDRESS ks -> Forall2 stands_for ks ws.
Proof.
  revert ks. induction ws as [|x ws IH]; intros ks <- N; [constructor|]. cbn [map]. constructor.
  - unfold stands_for. destruct (fst x) eqn:E; try reflexivity. exfalso. apply N. left. exact E.
  - apply IH; [reflexivity|]. intros X. apply N. right. exact X.
Qed.

Lemma op_cases op : prec op <> None -> In op [EQ; GT; LT; PIPE; CARET; AMP; PLUS; MINUS; STAR; SLASH; MOD].
Proof. destruct op; cbn; intros H; try (exfalso; apply H; reflexivity); tauto. Qed.

Lemma sequence_safe k0 ops rest : literal_kind k0 -> Forall (fun p => prec (fst p) <> None /\ literal_kind (snd p)) ops ->
  safe (SEMICOLON :: rest) -> safe (k0 :: kinds_of ops ++ SEMICOLON :: rest) /\
  (~ In DIEM_ADDRESS rest -> ~ In DIEM_ADDRESS (k0 :: kinds_of ops ++ SEMICOLON :: rest)).
Proof.
  intros K F S. revert k0 K. induction F as [|[op k] ops [H1 H2] _ IH]; intros k0 K.
  - split.
    + cbn [kinds_of flat_map app]. split; [intros ->; cbn in K; intuition discriminate|].
      split; [intros _; repeat split; discriminate|exact S].
    + cbn. intros N [E|[E|E]]; [subst k0; cbn in K; intuition discriminate|discriminate|auto].
  - cbn [fst snd] in *. destruct (IH k H2) as [I1 I2]. apply op_cases in H1.
    cbn [kinds_of flat_map app fst snd]. split.
    + split; [intros ->; cbn in K; intuition discriminate|].
      split; [intros _; cbn in H1; intuition (subst; discriminate)|].
      split; [intros ->; cbn in H1; intuition discriminate|].
      split; [intros [-> | ->]; cbn in H1; intuition discriminate|exact I1].
    + intros N [E|[E|E]]; [subst k0; cbn in K; intuition discriminate|subst op; cbn in H1; intuition discriminate|].
      apply (I2 N). exact E.
Qed.

Lemma operator_sequence k0 ops t ws : literal_kind k0 ->
  Forall (fun p => prec (fst p) <> None /\ literal_kind (snd p)) ops -> N.of_nat (length ops) <= 990 ->
  token_stream t ws -> map fst (proper ws) = script_kinds (k0 :: kinds_of ops ++ [SEMICOLON]) ->
  ascii_strings t -> tlen t < u32_bound ->
  exists g e, parse_text t = Ok (g, []) /\
    strip g = [TNode SOURCE_FILE [script_around [TNode EXPR_STMT [e; TTok SEMICOLON]]]] /\
    grouped e /\ seq_of e = Operand (lit k0) :: items_of ops.
Proof.
  intros K F L St E A Hs.
  destruct (sequence_tree ops F (lit k0)) as (e & O & Sq); [constructor; exact K|].
  assert (Lv : flat_map leaves [script_around [TNode EXPR_STMT [e; TTok SEMICOLON]]] = map fst (proper ws)).
  { rewrite script_leaves, E. f_equal. cbn [flat_map leaves app]. rewrite (optree_leaves _ _ O), Sq.
    cbn [lit seq_of]. rewrite flat_map_app, items_leaves, ?app_nil_r. cbn. rewrite ?app_nil_r. reflexivity. }
  assert (Sf : safe (map fst (proper ws)) /\ ~ In DIEM_ADDRESS (map fst (proper ws))).
  { rewrite E. unfold script_kinds.
    destruct (sequence_safe k0 ops [R_BRACE; R_BRACE] K F) as [S1 S2].
    { cbn. repeat split; try discriminate; intros [X|X]; discriminate X. }
    replace ((k0 :: kinds_of ops ++ [SEMICOLON]) ++ [R_BRACE; R_BRACE]) with (k0 :: kinds_of ops ++ SEMICOLON :: [R_BRACE; R_BRACE])
      by (cbn [app]; rewrite <- app_assoc; reflexivity).
    split.
    - cbn [app]. remember (k0 :: kinds_of ops ++ [SEMICOLON; R_BRACE; R_BRACE]) as r eqn:Er.
      cbn [safe]. repeat (split; [discriminate|split; [intros X;
        first [destruct X as [X|X]; discriminate X|repeat split; discriminate]|]]). exact S1.
    - cbn [app In]. intros X. repeat (destruct X as [X|X]; [discriminate X|]). apply S2; [cbn; intuition discriminate|exact X]. }
  destruct Sf as [S1 S2].
  destruct (core_parse t [script_around [TNode EXPR_STMT [e; TTok SEMICOLON]]]) as (g & P & Sg).
  - constructor; [apply script_gen; apply g_stmts_expr; [apply optree_gen; exact O|constructor]|].
    exists ws. split; [exact St|]. rewrite Lv. split; [apply stands_map; [reflexivity|exact S2]|].
    split; [apply safe_comment; exact S1|apply safe_glued; exact S1].
  - exact A.
  - exact Hs.
  - rewrite Lv, E. unfold script_kinds. cbn [app length]. rewrite !app_length. cbn [length].
    assert (X : length (kinds_of ops) = (2 * length ops)%nat).
    { unfold kinds_of. clear. induction ops as [|x ops IH]; [reflexivity|]. cbn in *. lia. }
    lia.
  - exists g, e. split; [exact P|]. split; [exact Sg|]. split; [eapply optree_grouped; eauto|exact Sq].
Qed.
