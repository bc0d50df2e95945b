(** Properties C48 and C49: programs of the core language are accepted, and
    parsed to the tree of the grammar (SyntaxSpec.v). *)
From Coq Require Import String.
From Verif Require Import Base BaseProofs Kinds KindsProofs LexSpec Lexer LexerRuns LexerProofs LexerStateProofs
  Parser Grammar Sink TreeSpec GreenSpec ParseProofs SyntaxSpec AcceptTop OperatorProofs LimitProofs PropLexer.
Local Open Scope N_scope.

(** ** C48.  A program of the core language, of at most 1996 tokens and in a
    layout the parser copes with, is parsed without errors, to exactly the tree
    the grammar gives it (with blanks and comments added). *)
Theorem C48_core_programs_are_parsed : forall t f,
  core_program t f -> ascii_strings t -> tlen t < u32_bound -> N.of_nat (length (flat_map leaves f)) <= 1996 ->
  exists g, parse_text t = Ok (g, []) /\ strip g = [TNode SOURCE_FILE f].
Proof. exact core_parse. Qed.

(** A program has one tree only, so "the" tree of the grammar makes sense. *)
Theorem C48_core_grammar_unambiguous : forall t f f',
  core_program t f -> core_program t f' -> ascii_strings t -> tlen t < u32_bound ->
  N.of_nat (length (flat_map leaves f)) <= 1996 -> N.of_nat (length (flat_map leaves f')) <= 1996 -> f = f'.
Proof.
  intros t f f' H H' A L N N'. destruct (core_parse _ _ H A L N) as (g & P & S).
  destruct (core_parse _ _ H' A L N') as (g' & P' & S'). congruence.
Qed.

(** ** C49.  Blanks and comments do not matter: two texts with the same tokens
    otherwise are parsed to the same tree, when the layouts are the good ones. *)
Theorem C49_layout_is_irrelevant_partial : forall t t' ws ws' f,
  gen File f -> N.of_nat (length (flat_map leaves f)) <= 1996 ->
  token_stream t ws -> token_stream t' ws' -> proper ws = proper ws' ->
  Forall2 stands_for (flat_map leaves f) (proper ws) ->
  ~ comment_in_the_way ws -> ~ comment_in_the_way ws' -> ~ glued ws -> ~ glued ws' ->
  ascii_strings t -> ascii_strings t' -> tlen t < u32_bound -> tlen t' < u32_bound ->
  exists g g', parse_text t = Ok (g, []) /\ parse_text t' = Ok (g', []) /\ strip g = strip g'.
Proof.
  intros t t' ws ws' f G N St St' E F C C' U U' A A' L L'.
  destruct (core_parse t f) as (g & P & S); [constructor; eauto|auto..|].
  destruct (core_parse t' f) as (g' & P' & S'); [constructor; [exact G|exists ws'; rewrite <- E; auto]|auto..|].
  exists g, g'. rewrite S, S'. auto.
Qed.

(** ** C23, in full.  A script with one function whose body is a sequence of
    literals separated by binary operators: whatever the operators and the
    layout, the tree of the statement reads as that sequence and is grouped by
    precedence, equal precedence to the left; only one tree is. *)
Theorem C23_operator_sequences : forall k0 ops t ws,
  literal_kind k0 -> Forall (fun p => prec (fst p) <> None /\ literal_kind (snd p)) ops ->
  N.of_nat (length ops) <= 990 ->
  token_stream t ws -> map fst (proper ws) = script_kinds (k0 :: kinds_of ops ++ [SEMICOLON]) ->
  ascii_strings t -> tlen t < u32_bound ->
  exists g e, parse_text t = Ok (g, []) /\
    strip g = [TNode SOURCE_FILE [script_around [TNode EXPR_STMT [e; TTok SEMICOLON]]]] /\
    (grouped e /\ seq_of e = Operand (lit k0) :: items_of ops) /\
    forall e', grouped e' -> seq_of e' = Operand (lit k0) :: items_of ops -> e' = e.
Proof.
  intros k0 ops t ws K F L St E A Hs.
  destruct (operator_sequence k0 ops t ws K F L St E A Hs) as (g & e & P & S & G & Q).
  exists g, e. do 2 (split; [assumption|]). split; [auto|]. intros e' G' Q'.
  apply (grouped_unique (length (seq_of e'))); auto. congruence.
Qed.

(** ** Computing the tokens and the layout of a concrete text *)
Fixpoint cut (fuel : nat) (t : text) : option (list (kind * text)) :=
  match fuel, t with
  | _, [] => Some []
  | O, _ => None
  | S fuel', _ =>
      match find_token t with
      | Ok (k, n) =>
          let w := firstn (N.to_nat n) t in
          if (tlen w =? n) && negb (kind_eqb k EOF) then
            match cut fuel' (skipn (N.to_nat n) t) with Some r => Some ((k, w) :: r) | None => None end
          else None
      | _ => None
      end
  end.
Definition asciib (t : text) : bool := forallb (fun c => c <? 128) t.
Fixpoint gluedb (ws : list (kind * text)) : bool :=
  match ws with
  | p :: ((q :: r :: _) as rest) =>
      (kind_eqb (fst p) COLON_COLON && kind_eqb (fst q) IDENT && (kind_eqb (fst r) L_BRACE || kind_eqb (fst r) STAR)) || gluedb rest
  | _ => false
  end.
Fixpoint scan (c : bool) (ws : list (kind * text)) : bool :=
  match ws with
  | [] => false
  | p :: r => if is_trivia (fst p) then scan (c || kind_eqb (fst p) COMMENT) r
              else c && existsb (kind_eqb (fst p)) [L_BRACE; COLON; COLON_COLON]
  end.
Fixpoint commentb (ws : list (kind * text)) : bool :=
  match ws with
  | [] => false
  | p :: r => (existsb (kind_eqb (fst p)) [IDENT; INTEGER_NUMBER] && scan false r) || commentb r
  end.

Lemma asciib_ok t : asciib t = true -> ascii t.
Proof. unfold asciib, ascii. rewrite forallb_forall. intros H. apply Forall_forall. intros x Hx. specialize (H x Hx). lia. Qed.
Lemma cut_ok fuel : forall t ws, cut fuel t = Some ws -> ascii t -> token_stream t ws.
Proof.
  assert (X : forall t ws, cut fuel t = Some ws -> steps t ws [] /\ Forall (fun p => fst p <> EOF) ws).
  { induction fuel as [|fuel IH]; intros [|c t] ws H; try discriminate H.
    1, 2: injection H as <-; split; constructor.
    cbn [cut] in H. set (x := c :: t) in *. destruct (find_token x) as [[k n]| |] eqn:F; try discriminate H.
    destruct ((tlen (firstn (N.to_nat n) x) =? n) && negb (kind_eqb k EOF)) eqn:E; [|discriminate H].
    destruct (cut fuel (skipn (N.to_nat n) x)) as [r|] eqn:C; [|discriminate H]. injection H as <-.
    apply andb_true_iff in E as [E1 E2]. apply N.eqb_eq in E1. apply negb_true_iff in E2.
    destruct (IH _ _ C) as [I1 I2]. split.
    - assert (Y : steps (firstn (N.to_nat n) x ++ skipn (N.to_nat n) x) ((k, firstn (N.to_nat n) x) :: r) [])
        by (constructor; [rewrite firstn_skipn, E1; exact F|exact I1]).
      rewrite firstn_skipn in Y. exact Y.
    - constructor; [|exact I2]. cbn [fst]. intros ->. discriminate E2. }
  intros t ws H A. destruct (X _ _ H) as [S N].
  destruct (steps_stream _ _ _ S eq_refl (C18_ascii_in_scope _ A)) as (ws' & n & -> & St).
  destruct n as [|n]; [cbn [repeat]; rewrite app_nil_r; exact St|].
  exfalso. apply Forall_app in N as [_ N]. cbn [repeat] in N. inversion N as [|? ? N1 _]; subst. apply N1. reflexivity.
Qed.
Lemma glued_ok ws : gluedb ws = false -> ~ glued ws.
Proof.
  intros H (a & p & q & r & b & E & P & Q & R). subst ws. revert H. induction a as [|x a IH]; cbn [app gluedb].
  - rewrite P, Q. destruct R as [-> | ->]; cbn; intros H; discriminate H.
  - destruct (a ++ p :: q :: r :: b) as [|y [|z l]] eqn:E; try (destruct a as [|? [|? ?]]; discriminate E).
    intros H. apply orb_false_iff in H as [_ H]. exact (IH H).
Qed.
Lemma scan_ok c b : forall q d, Forall (fun x => is_trivia (fst x) = true) b ->
  (c = true \/ exists b1 w b2, b = b1 ++ (COMMENT, w) :: b2) ->
  (fst q = L_BRACE \/ fst q = COLON \/ fst q = COLON_COLON) -> scan c (b ++ q :: d) = true.
Proof.
  revert c. induction b as [|x b IH]; intros c q d F C Q; cbn [app scan].
  - destruct C as [-> |(b1 & w & b2 & E)]; [|destruct b1; discriminate E]. destruct Q as [-> | [-> | ->]]; reflexivity.
  - inversion F as [|? ? F1 F2]; subst. rewrite F1. apply IH; auto.
    destruct C as [-> |(b1 & w & b2 & E)]; [auto|]. destruct b1 as [|y b1]; injection E as -> E.
    + left. cbn. apply orb_true_r.
    + right. eauto.
Qed.
Lemma comment_ok ws : commentb ws = false -> ~ comment_in_the_way ws.
Proof.
  intros H (a & p & b & w & c & q & d & E & P & B & C & Q). subst ws. revert H. induction a as [|x a IH]; cbn [app commentb].
  - assert (S : scan false ((b ++ (COMMENT, w) :: c) ++ q :: d) = true).
    { apply scan_ok; [apply Forall_app; split; [exact B|constructor; [reflexivity|exact C]]|right; eauto|exact Q]. }
    rewrite <- app_assoc in S. cbn [app] in S. rewrite S. destruct P as [-> | ->]; cbn; intros H; discriminate H.
  - intros H. apply orb_false_iff in H as [_ H]. auto.
Qed.

(** ** A program that uses much of the language *)
Definition sample_program : text := `"// a file
address 0x1 {
  module M {
    struct S<T: copy + drop> { x: u8, y: & mut M::T }
    fun f(a: u8, b: &M::T): u8 { // the body
      let x: u8 = 1 + 2 * f(a).c;
      let S { x, y: (z, mut w) } = M::g();
      M::h(x * 2, M::S { a: !true, b });
      @0x1
    }
  }
}
".

Ltac layout_of := split; [apply comment_ok; vm_compute; reflexivity|apply glued_ok; vm_compute; reflexivity].
Definition sample_tokens := Eval vm_compute in cut 1000 sample_program.

Example sample_is_core : exists f, core_program sample_program f /\ ascii_strings sample_program /\
  tlen sample_program < u32_bound /\ N.of_nat (length (flat_map leaves f)) <= 1996 /\ (length (flat_map leaves f) >= 100)%nat.
Proof.
  assert (Path1 : gen Path_ [TNode PATH [segment_node]]) by constructor.
  assert (Path2 : gen Path_ [TNode PATH [TNode PATH [segment_node]; TTok COLON_COLON; segment_node]]) by (constructor; constructor).
  assert (E1 : forall p e, gen Atom [e] -> gen (Expr p) [e]).
  { intros p e H. apply g_expr_unary, g_unary_postfix, g_postfix_atom. exact H. }
  assert (Num : gen Atom [TNode LITERAL [TTok INTEGER_NUMBER]]) by (constructor; cbn; tauto).
  assert (F : exists f, gen File f /\
    Forall2 stands_for (flat_map leaves f) (proper (match sample_tokens with Some ws => ws | None => [] end))).
  { eexists. split.
    - eapply g_file; [|constructor]. eapply g_address; [constructor|]. eapply g_modules; [|constructor].
      eapply g_module. eapply g_module_items. eapply g_items.
      { eapply g_item_struct. eapply g_struct.
        - eapply g_generics. eapply g_commas_last. eapply g_type_param_bounds. eapply g_bounds_more. constructor.
        - eapply g_struct_fields. eapply g_commas_more.
          + eapply g_field. eapply g_type_path. exact Path1.
          + eapply g_commas_last. eapply g_field. eapply g_type_ref_mut. eapply g_type_path. exact Path2. }
      eapply g_items; [|constructor]. eapply g_item_fun. eapply g_function.
      { eapply g_commas_more; [|eapply g_commas_last]; eapply g_param.
        - eapply g_type_path. exact Path1.
        - eapply g_type_ref. eapply g_type_path. exact Path2. }
      { eapply g_ret. eapply g_type_path. exact Path1. }
      eapply g_block. eapply g_stmts_let.
      { eapply g_let.
        - eapply g_pat_name.
        - eapply g_annot. eapply g_type_path. exact Path1.
        - eapply g_init. eapply (g_expr_bin 1 10 _ PLUS); [reflexivity|lia|eapply E1, Num|].
          eapply (g_expr_bin _ 11 _ STAR); [reflexivity|lia|eapply E1, Num|].
          eapply g_expr_unary, g_unary_postfix. eapply g_dot. eapply g_call.
          + eapply g_postfix_atom, g_path_expr. exact Path1.
          + eapply g_commas_last. eapply E1, g_path_expr. exact Path1. }
      eapply g_stmts_let.
      { eapply g_let.
        - eapply g_pat_record. eapply g_commas_more; [eapply g_field_pat_short|]. eapply g_commas_last.
          eapply g_field_pat. eapply g_pat_tuple.
          + eapply g_commas_more; [eapply g_pat_name|]. eapply g_commas_last. eapply g_pat_mut.
          + cbn. discriminate.
        - eapply g_annot_none.
        - eapply g_init. eapply g_expr_unary, g_unary_postfix. eapply g_call.
          + eapply g_postfix_atom, g_path_expr. exact Path2.
          + eapply g_commas_nil. }
      eapply g_stmts_expr.
      { eapply g_expr_unary, g_unary_postfix. eapply g_call.
        - eapply g_postfix_atom, g_path_expr. exact Path2.
        - eapply g_commas_more.
          + eapply (g_expr_bin 1 11 _ STAR); [reflexivity|lia|eapply E1, g_path_expr; exact Path1|eapply E1, Num].
          + eapply g_commas_last. eapply E1. eapply g_record; [exact Path2|]. eapply g_commas_more.
            * eapply g_field_init. eapply g_expr_unary. eapply (g_unary BANG); [cbn; tauto|].
              eapply g_unary_postfix, g_postfix_atom, g_literal. cbn; tauto.
            * eapply g_commas_last. eapply g_field_init_short. }
      eapply g_stmts_last. eapply E1, g_address_lit. constructor.
    - vm_compute. repeat constructor. all: eexists; reflexivity. }
  destruct F as (f & G & F).
  assert (L : N.of_nat (length (flat_map leaves f)) <= 1996 /\ (length (flat_map leaves f) >= 100)%nat).
  { rewrite (Forall2_len _ _ _ F). split; [vm_compute; discriminate|]. apply Nat.leb_le. vm_compute. reflexivity. }
  exists f. split; [|split; [apply C18_ascii_in_scope, asciib_ok; vm_compute; reflexivity|split; [vm_compute; reflexivity|exact L]]].
  constructor; [exact G|]. exists (match sample_tokens with Some ws => ws | None => [] end).
  split; [apply (cut_ok 1000); [vm_compute; reflexivity|apply asciib_ok; vm_compute; reflexivity]|].
  split; [exact F|]. layout_of.
Qed.

(** An operator sequence that meets the hypotheses of C23. *)
Example sample_sequence : exists t ws,
  token_stream t ws /\ ascii_strings t /\ tlen t < u32_bound /\
  map fst (proper ws) = script_kinds (INTEGER_NUMBER :: kinds_of [(PLUS, INTEGER_NUMBER); (STAR, TRUE_KW);
     (MINUS, INTEGER_NUMBER); (LT, BYTE_STRING)] ++ [SEMICOLON]) /\
  t = `"script{fun f(){1+ 2*true // comment
   -3<x""""; } }".
Proof.
  exists (`"script{fun f(){1+ 2*true // comment
   -3<x""""; } }"). eexists.
  split; [apply (cut_ok 1000); [vm_compute; reflexivity|apply asciib_ok; vm_compute; reflexivity]|].
  split; [apply C18_ascii_in_scope, asciib_ok; vm_compute; reflexivity|]. repeat split.
Qed.

(** ** Layout does matter: a star or a brace glued to a qualified name, or a
    comment in front of a brace, changes what the parser makes of the very
    same tokens. *)
Definition module_with (body : text) : text := `"module M { fun f() { " ++ body ++ `" } }".
Definition accepted (t : text) : Prop := exists g, parse_text t = Ok (g, []).
Definition same_tokens (t t' : text) : Prop :=
  exists ws ws', token_stream t ws /\ token_stream t' ws' /\ proper ws = proper ws'.

Ltac tokens_agree := eexists _, _; split; [apply (cut_ok 1000); [vm_compute; reflexivity|apply asciib_ok; vm_compute; reflexivity]|];
  split; [apply (cut_ok 1000); [vm_compute; reflexivity|apply asciib_ok; vm_compute; reflexivity]|vm_compute; reflexivity].
Ltac is_accepted := eexists; vm_compute; reflexivity.
Ltac is_rejected := intros [g H]; vm_compute in H; discriminate H.

Theorem C49_layout_is_irrelevant_refuted :
  (exists t t', same_tokens t t' /\ accepted t /\ ~ accepted t' /\ t = module_with (`"M::x * 2;") /\ t' = module_with (`"M::x*2;")) /\
  (exists t t', same_tokens t t' /\ accepted t /\ ~ accepted t' /\ t = module_with (`"M::S { };") /\ t' = module_with (`"M::S{ };")) /\
  (exists t t', same_tokens t t' /\ accepted t /\ ~ accepted t' /\ t = module_with (`"S { x: 1 };") /\
     t' = module_with (`"S { x // comment
      : 1 };")).
Proof.
  split; [|split].
  - exists (module_with (`"M::x * 2;")), (module_with (`"M::x*2;")). split; [tokens_agree|].
    split; [is_accepted|]. split; [is_rejected|auto].
  - exists (module_with (`"M::S { };")), (module_with (`"M::S{ };")). split; [tokens_agree|].
    split; [is_accepted|]. split; [is_rejected|auto].
  - exists (module_with (`"S { x: 1 };")), (module_with (`"S { x // comment
      : 1 };")). split; [tokens_agree|].
    split; [is_accepted|]. split; [is_rejected|auto].
Qed.

(** ** Size does matter too: the parser gives up after 10 000 looks at the next
    token, so files of 1112 empty modules or more bring it down, although
    the grammar and the layout are fine. *)
Theorem C48_any_size_refuted : forall n, (1112 <= n)%nat -> tlen (modules n) < u32_bound ->
  core_program (modules n) (module_trees n) /\ ascii_strings (modules n) /\ parse_text (modules n) = Panic PAssert.
Proof.
  intros n Hn Hs. split; [|split; [apply C18_ascii_in_scope, modules_ascii|apply modules_panic; assumption]].
  apply modules_core.
Qed.
Example modules_of_that_size : exists n, (1112 <= n)%nat /\ tlen (modules n) < u32_bound.
Proof.
  exists (N.to_nat 1112). split; [lia|].
  assert (X : forall n, tlen (modules n) = 9 * N.of_nat n).
  { induction n as [|n IH]; [reflexivity|]. cbn [modules]. rewrite tlen_app, IH.
    change (tlen (`"module M;")) with 9. lia. }
  rewrite X. reflexivity.
Qed.

Print Assumptions C23_operator_sequences.
Print Assumptions C48_core_programs_are_parsed.
Print Assumptions C48_core_grammar_unambiguous.
Print Assumptions C48_any_size_refuted.
Print Assumptions C49_layout_is_irrelevant_partial.
Print Assumptions C49_layout_is_irrelevant_refuted.
