(** Property C25, continued: what a token the grammar has no use for does to
    the parser (UnknownSpec.v). *)
From Coq Require Import String.
From Verif Require Import Base BaseProofs Kinds KindsProofs LexSpec Lexer LexerRuns LexerProofs LexerStateProofs
  Parser Grammar Sink TreeSpec GreenSpec ParseProofs SyntaxSpec UnknownSpec UnknownProofs PropLexer PropParser PropSyntax PropShape.
Local Open Scope N_scope.

(** ** C25.  Complete items, perhaps in an opened module, script or address,
    and then a token that begins no item known at that place: the parser panics,
    whatever comes later.  (At most 1980 tokens come before it.) *)
Theorem C25_unknown_items_panic_partial : forall t ws n k,
  token_stream t ws -> ascii_strings t -> ~ comment_in_the_way ws -> ~ glued ws ->
  unknown_item ws n k -> N.of_nat n <= 1980 -> parse_text t = Panic PAssert.
Proof. intros t ws n k S A C G U L. exact (parse_unknown t ws n k S U C G A L). Qed.

(** In particular no module may begin, or go on behind its functions and
    structs, with an item of another sort. *)
Theorem C25_other_items_in_modules_panic_partial : forall t ws h is a k w b,
  token_stream t ws -> ascii_strings t -> ~ comment_in_the_way ws -> ~ glued ws ->
  proper ws = a ++ (k, w) :: b -> module_head h -> gen Items is ->
  Forall2 stands_for (h ++ flat_map leaves is) a -> N.of_nat (length a) <= 1980 ->
  k <> FUN_KW -> k <> STRUCT_KW -> k <> SEMICOLON -> k <> R_BRACE ->
  parse_text t = Panic PAssert.
Proof.
  intros t ws h is a k w b S A C G E H I F L K1 K2 K3 K4.
  apply (C25_unknown_items_panic_partial t ws (length a) k); auto.
  exists (h ++ flat_map leaves is), [FUN_KW; STRUCT_KW; R_BRACE; SEMICOLON], a, w, b.
  split; [exact E|]. split; [reflexivity|]. split; [exact F|].
  split; [|cbn; intuition congruence].
  apply (b_module [] [MODULE_KW; SCRIPT_KW; ADDRESS_KW] h is); auto; [|cbn; auto]. apply (b_file []). constructor.
Qed.

(** Between the statements of a function, what starts no statement is skipped up
    to a semicolon or a closing parenthesis.  If the parenthesis comes first the
    parser panics, because it starts no statement either. *)
Theorem C25_stray_parentheses_panic_partial : forall t ws n,
  token_stream t ws -> ascii_strings t -> ~ comment_in_the_way ws -> ~ glued ws ->
  stray_parenthesis ws n -> N.of_nat n <= 1975 -> parse_text t = Panic PAssert.
Proof. intros t ws n S A C G U L. exact (parse_stray t ws n S U C G A L). Qed.
(** So no statement may be a conditional or a loop with a condition. *)
Theorem C25_conditionals_panic_partial : forall t ws pre a k w w1 c w2 b,
  token_stream t ws -> ascii_strings t -> ~ comment_in_the_way ws -> ~ glued ws ->
  proper ws = a ++ (k, w) :: (L_PAREN, w1) :: c ++ (R_PAREN, w2) :: b ->
  Forall2 stands_for pre a -> inside pre -> N.of_nat (length a) <= 1975 ->
  k = IF_KW \/ k = WHILE_KW -> (forall p, In p c -> fst p <> SEMICOLON) ->
  parse_text t = Panic PAssert.
Proof.
  intros t ws pre a k w w1 c w2 b S A C G E F I L K N.
  apply (C25_stray_parentheses_panic_partial t ws (length a)); auto.
  assert (X : exists c' w' b', c ++ (R_PAREN, w2) :: b = c' ++ (R_PAREN, w') :: b' /\ Forall (fun p => fst p <> SEMICOLON /\ fst p <> R_PAREN) c').
  { clear - N. induction c as [|[k' w'] c IH]; [exists [], w2, b; split; [reflexivity|constructor]|].
    destruct (kind_eqb k' R_PAREN) eqn:E.
    - apply kind_eqb_eq in E. subst k'. exists [], w', (c ++ (R_PAREN, w2) :: b). split; [reflexivity|constructor].
    - destruct IH as (c' & w'' & b' & E' & F'); [intros p Hp; apply N; right; exact Hp|].
      exists ((k', w') :: c'), w'', b'. cbn [app]. rewrite E'. split; [reflexivity|]. constructor; [|exact F'].
      split; [exact (N _ (or_introl eq_refl))|]. cbn [fst]. intros ->. discriminate E. }
  destruct X as (c' & w' & b' & E' & F'). rewrite E' in E.
  exists pre, a, ((k, w) :: (L_PAREN, w1) :: c'), w', b'. split; [exact E|]. split; [reflexivity|]. split; [exact F|]. split; [exact I|].
  split.
  - intros p Hp. injection Hp as <-. cbn. destruct K as [-> | ->]; intuition discriminate.
  - constructor; [destruct K as [-> | ->]; split; discriminate|]. constructor; [split; discriminate|exact F'].
Qed.

(** The result of parsing always has the root [SourceFile::parse] asks for, so
    that everything said about the parser holds of [SourceFile::parse]. *)
Theorem C25_root_check_never_fails : forall t, tlen t < u32_bound -> source_file_parse t = parse_text t.
Proof.
  intros t Hs. unfold source_file_parse. pose proof (parse_cases t Hs) as C.
  destruct (parse_text t) as [[g errs]|w|]; [|reflexivity|reflexivity].
  cbn [bind]. destruct C as (f & ws & O). destruct (ro_root _ _ _ _ _ O) as (cs & -> & _). reflexivity.
Qed.

(** ** The hypotheses are met *)
Definition no_comment (ws : list (kind * text)) : bool :=
  forallb (fun p => negb (kind_eqb (fst p) COMMENT)) ws.
Definition no_colons (ws : list (kind * text)) : bool :=
  forallb (fun p => negb (kind_eqb (fst p) COLON_COLON)) ws.
Lemma no_comment_ok ws : no_comment ws = true -> ~ comment_in_the_way ws.
Proof.
  intros H (a & p & b & w & c & q & d & -> & _). unfold no_comment in H. rewrite forallb_forall in H.
  assert (X := H (COMMENT, w)). cbn in X. discriminate X. apply in_or_app. right. right. apply in_or_app. right. left. reflexivity.
Qed.
Lemma no_colons_ok ws : no_colons ws = true -> ~ glued ws.
Proof.
  intros H (a & p & q & r & b & -> & E & _). unfold no_colons in H. rewrite forallb_forall in H.
  assert (X := H p). rewrite E in X. discriminate X. apply in_or_app. right. left. reflexivity.
Qed.

Definition with_const : text := `"module M { struct S { }
  fun f() { 1 + 2 }
  const LIMIT: u8 = 10;
}".
Example const_panics : parse_text with_const = Panic PAssert.
Proof.
  assert (S : token_stream with_const (tokens_of with_const))
    by (apply (cut_ok 1000); [vm_compute; reflexivity|apply asciib_ok; vm_compute; reflexivity]).
  eapply (C25_other_items_in_modules_panic_partial with_const (tokens_of with_const) [MODULE_KW; IDENT; L_BRACE] _
    (firstn 16 (proper (tokens_of with_const))) _ _ (skipn 17 (proper (tokens_of with_const))) S).
  - apply C18_ascii_in_scope, asciib_ok. vm_compute. reflexivity.
  - apply no_comment_ok. vm_compute. reflexivity.
  - apply no_colons_ok. vm_compute. reflexivity.
  - vm_compute. reflexivity.
  - constructor.
  - eapply g_items; [|eapply g_items; [|constructor]].
    + apply g_item_struct. eapply g_struct; [apply g_generics_none|]. eapply g_struct_fields, g_commas_nil.
    + apply g_item_fun. eapply g_function; [apply g_commas_nil|apply g_ret_none|]. eapply g_block, g_stmts_last.
      eapply (g_expr_bin _ 10 _ PLUS); [reflexivity|discriminate| |];
        apply g_expr_unary, g_unary_postfix, g_postfix_atom, (g_literal INTEGER_NUMBER); cbn; tauto.
  - vm_compute. repeat (apply Forall2_cons; [reflexivity|]). apply Forall2_nil.
  - vm_compute. discriminate.
  - discriminate.
  - discriminate.
  - discriminate.
  - discriminate.
Qed.

Definition with_if : text := `"module M { fun f(x: u8): u8 { let y = x + 1; { y; if (y > g(2)) { y } else { x } } } }".
Example if_panics : parse_text with_if = Panic PAssert.
Proof.
  assert (S : token_stream with_if (tokens_of with_if))
    by (apply (cut_ok 1000); [vm_compute; reflexivity|apply asciib_ok; vm_compute; reflexivity]).
  assert (E1 : forall p e, gen Atom [e] -> gen (Expr p) [e]).
  { intros p e H. apply g_expr_unary, g_unary_postfix, g_postfix_atom. exact H. }
  assert (P1 : gen Atom [TNode PATH_EXPR [TNode PATH [segment_node]]]) by (apply g_path_expr, g_path_name).
  assert (I : exists pre, inside pre /\ Forall2 stands_for pre (firstn 23 (proper (tokens_of with_if)))).
  { eexists. split.
    - eapply i_block; [eapply i_fun|].
      + eapply (b_module [] _ _ []); [apply (b_file []); constructor|cbn; auto|apply mh_name|constructor].
      + cbn; auto.
      + apply g_commas_last. apply g_param, g_type_path, g_path_name.
      + apply g_ret, g_type_path, g_path_name.
      + eapply f_let; [|constructor]. eapply g_let; [apply g_pat_name|apply g_annot_none|apply g_init].
        eapply (g_expr_bin _ 10 _ PLUS); [reflexivity|discriminate|apply E1, P1|]. apply E1, (g_literal INTEGER_NUMBER). cbn. tauto.
      + eapply f_expr; [apply E1, P1|constructor].
    - vm_compute. repeat (apply Forall2_cons; [reflexivity|]). apply Forall2_nil. }
  destruct I as (pre & I & F).
  eapply (C25_conditionals_panic_partial with_if (tokens_of with_if) pre
    (firstn 23 (proper (tokens_of with_if))) _ _ _ (firstn 6 (skipn 25 (proper (tokens_of with_if)))) _ (skipn 32 (proper (tokens_of with_if))) S).
  - apply C18_ascii_in_scope, asciib_ok. vm_compute. reflexivity.
  - apply no_comment_ok. vm_compute. reflexivity.
  - apply no_colons_ok. vm_compute. reflexivity.
  - vm_compute. reflexivity.
  - exact F.
  - exact I.
  - vm_compute. discriminate.
  - left. reflexivity.
  - intros p Hp. vm_compute in Hp. repeat (destruct Hp as [<- |Hp]; [discriminate|]). destruct Hp.
Qed.
Print Assumptions C25_stray_parentheses_panic_partial.
Print Assumptions C25_conditionals_panic_partial.
Print Assumptions C25_root_check_never_fails.
Print Assumptions C25_unknown_items_panic_partial.
Print Assumptions C25_other_items_in_modules_panic_partial.
