(** Property C76: a mistake does not disturb what stands before it. *)
From Coq Require Import String.
From Verif Require Import Base BaseProofs Kinds KindsProofs LexSpec Lexer LexerRuns LexerProofs LexerStateProofs
  Parser Grammar Sink TreeSpec GreenSpec ParseProofs SyntaxSpec UnknownSpec BeforeSpec BeforeProofs PropLexer PropParser PropSyntax PropShape PropUnknown.
Local Open Scope N_scope.

(** ** C76.  The tokens [a] are complete items and then the complete parts of the
    constructs that are open at some place of the file.  Whatever the tokens [b]
    are, if the parser returns then the tree begins with those items and those
    open constructs, as it would if the file was complete, and no message is
    placed before the last token of [a].  (A semicolon directly behind an item
    of a module is the one thing that belongs to the item in front of it.) *)
Theorem C76_before_a_mistake : forall t ws f o a b g errs,
  token_stream t ws -> ascii_strings t -> tlen t < u32_bound -> ~ comment_in_the_way ws -> ~ glued ws ->
  gen File f -> place o -> proper ws = a ++ b -> Forall2 stands_for (flat_map leaves f ++ opened_leaves o) a ->
  (in_items o -> forall p r, b = p :: r -> fst p <> SEMICOLON) ->
  N.of_nat (length a) <= 1970 -> parse_text t = Ok (g, errs) ->
  (exists f', strip g = [TNode SOURCE_FILE (f ++ f')] /\ begins o f') /\
  forall e, In e errs -> exists u v, ws = u ++ v /\ se_pos e = tlen (concat (map snd u)) /\ (length a <= length (proper u))%nat.
Proof.
  intros t ws f o a b g errs S A L C G Gf P Pr F O Ln PT.
  exact (parse_before t ws f o a b g errs S A L C G Gf P Pr F O Ln PT).
Qed.

(** So the complete items in front of a mistake are items of the tree. *)
Theorem C76_items_before_a_mistake : forall t ws f a b g errs,
  token_stream t ws -> ascii_strings t -> tlen t < u32_bound -> ~ comment_in_the_way ws -> ~ glued ws ->
  gen File f -> proper ws = a ++ b -> Forall2 stands_for (flat_map leaves f) a ->
  N.of_nat (length a) <= 1970 -> parse_text t = Ok (g, errs) ->
  exists f', strip g = [TNode SOURCE_FILE (f ++ f')].
Proof.
  intros t ws f a b g errs S A L C G Gf Pr F Ln PT.
  destruct (C76_before_a_mistake t ws f [] a b g errs) as [(f' & E & _) _]; try assumption.
  - constructor.
  - cbn. rewrite app_nil_r. exact F.
  - intros H. inversion H as [o [h is Hm Hi]| |].
  - exists f'. exact E.
Qed.

(** A script, and then a function with a field name missing. *)
Definition mistaken : text := `"script { } module M { struct S { } fun f(x: u8) { let y = x; y.; z } fun g() { } }".
Definition path_here : list tree := [TNode PATH_EXPR [TNode PATH [segment_node]]].
(** the parts of the module that are complete, up to the mistake *)
Definition complete_parts : opened :=
  [(MODULE_DEF, [TTok MODULE_KW; name_node]);
   (ITEM_LIST, [TTok L_BRACE; TNode STRUCT [TTok STRUCT_KW; name_node; TNode RECORD_FIELD_LIST [TTok L_BRACE; TTok R_BRACE]]])] ++
  [(FUNCTION_DEF, [TTok FUN_KW; name_node;
     TNode PARAM_LIST [TTok L_PAREN; TNode PARAM [name_node; TTok COLON; TNode PATH_TYPE [TNode PATH [segment_node]]]; TTok R_PAREN]]);
   (BLOCK_EXPR, [TTok L_BRACE; TNode LET_STMT ([TTok LET_KW; TNode IDENT_PAT [name_node]; TTok EQ] ++ path_here ++ [TTok SEMICOLON])])].
Example complete_place : place complete_parts.
Proof.
  unfold complete_parts. eapply (p_function _ [_] [] [_]).
  - apply ii_module, (im _ [_]); [constructor|]. eapply g_items; [|constructor]. apply g_item_struct.
    apply (g_struct [] [_]); [apply g_generics_none|]. apply (g_struct_fields []), g_commas_nil.
  - apply g_commas_last. apply g_param, g_type_path, g_path_name.
  - apply g_ret_none.
  - apply (f_let [_; _; _; _]); [|constructor]. apply (g_let _ [] [_; _]); [apply g_pat_name|apply g_annot_none|].
    apply g_init, g_expr_unary, g_unary_postfix, g_postfix_atom, g_path_expr, g_path_name.
Qed.
Example mistaken_tree : exists g errs, parse_text mistaken = Ok (g, errs) /\ length errs = 1%nat /\
  (exists f', strip g = [TNode SOURCE_FILE ([TNode SCRIPT_DEF [TTok SCRIPT_KW; TNode ITEM_LIST [TTok L_BRACE; TTok R_BRACE]]] ++ f')] /\ begins complete_parts f') /\
  forall e, In e errs -> exists u v, tokens_of mistaken = u ++ v /\ se_pos e = tlen (concat (map snd u)) /\ (23 <= length (proper u))%nat.
Proof.
  assert (S : token_stream mistaken (tokens_of mistaken))
    by (apply (cut_ok 1000); [vm_compute; reflexivity|apply asciib_ok; vm_compute; reflexivity]).
  assert (P : exists g errs, parse_text mistaken = Ok (g, errs) /\ length errs = 1%nat).
  { destruct (parse_text mistaken) as [[g errs]|w|] eqn:E; [exists g, errs; split; [reflexivity|]| |]; vm_compute in E; try discriminate E.
    injection E as <- <-. reflexivity. }
  destruct P as (g & errs & P & Ln). exists g, errs. split; [exact P|]. split; [exact Ln|].
  eapply (C76_before_a_mistake mistaken (tokens_of mistaken) _ complete_parts (firstn 23 (proper (tokens_of mistaken))) (skipn 23 (proper (tokens_of mistaken)))); try assumption.
  - apply C18_ascii_in_scope, asciib_ok. vm_compute. reflexivity.
  - vm_compute. reflexivity.
  - apply no_comment_ok. vm_compute. reflexivity.
  - apply no_colons_ok. vm_compute. reflexivity.
  - apply g_file; [|constructor]. apply (g_script []). constructor.
  - exact complete_place.
  - symmetry. apply firstn_skipn.
  - vm_compute. repeat (apply Forall2_cons; [reflexivity|]). apply Forall2_nil.
  - intros _ p r E. vm_compute in E. injection E as <- _. discriminate.
  - vm_compute. discriminate.
Qed.
Print Assumptions C76_before_a_mistake.
Print Assumptions C76_items_before_a_mistake.
