(** Property C51: the typed view of a parsed file. *)
From Coq Require Import String.
From Verif Require Import Base BaseProofs Kinds KindsProofs LexSpec Lexer Parser Grammar Sink TreeSpec GreenSpec
  ParserLogic SinkProofs ParseProofs SyntaxSpec AcceptTop PropLexer LenientSpec LenientTop Ast PropParser PropAst TypedProofs.
Local Open Scope N_scope.

(** ** [Parse::ok] gives the file exactly when there are no errors, and never panics. *)
Theorem C51_ok : forall t g errs,
  tlen t < u32_bound -> source_file_parse t = Ok (g, errs) ->
  parse_ok (g, errs) = Ok (match errs with [] => inl (SourceFile_ g) | _ => inr errs end) /\
  parse_tree (g, errs) = Ok (SourceFile_ g) /\ gtext g = t.
Proof.
  intros t g errs Hs H. unfold source_file_parse in H. apply bind_ok in H as ([g' errs'] & P & H).
  apply bind_ok in H as (u & _ & H). injection H as -> ->.
  pose proof (parse_cases t Hs) as C. rewrite P in C. destruct C as (f & ws & O).
  destruct (ro_root _ _ _ _ _ O) as (cs & -> & _).
  split; [destruct errs; reflexivity|]. split; [reflexivity|].
  apply C19_lossless with (errs := errs); assumption.
Qed.

(** ** [SourceFile::script_defs]: the scripts at the top of the file, all of them, in order. *)
Definition is_script (t : tree) : bool := match t with TNode SCRIPT_DEF _ => true | _ => false end.
Theorem C51_scripts : forall t g errs,
  tlen t < u32_bound -> parse_text t = Ok (g, errs) ->
  exists f, strip g = [TNode SOURCE_FILE f] /\
    flat_map strip (map script_syntax (script_defs (SourceFile_ g))) = filter is_script f /\
    Forall (fun s => inside (script_syntax s) g) (script_defs (SourceFile_ g)).
Proof.
  intros t g errs Hs P. pose proof (parse_cases t Hs) as C. rewrite P in C. destruct C as (f & ws & O).
  destruct (ro_root _ _ _ _ _ O) as (cs & -> & _). exists (flat_map strip cs). split; [reflexivity|].
  unfold script_defs, children, node_children. cbn [gchildren]. split.
  - clear. induction cs as [|[k gs|k w] cs IH]; [reflexivity| |]; cbn [filter is_node flat_map strip].
    + cbn [filter_map app filter is_script]. unfold cast_script at 1. cbn [gkind].
      destruct (kind_eqb k SCRIPT_DEF) eqn:E.
      * apply kind_eqb_eq in E. subst k. cbn [map script_syntax flat_map strip app]. rewrite IH. reflexivity.
      * rewrite IH. destruct k; try reflexivity. discriminate E.
    + destruct (is_trivia k); cbn [app filter is_script]; exact IH.
  - apply Forall_forall. intros s Hin.
    assert (X : In (script_syntax s) cs).
    { clear -Hin. induction cs as [|c cs IH]; [destruct Hin|]. cbn [filter] in Hin.
      destruct (is_node c); [|right; auto]. cbn [filter_map] in Hin. unfold cast_script at 1 in Hin.
      destruct (kind_eqb (gkind c) SCRIPT_DEF); [|right; auto]. destruct Hin as [<- |Hin]; [left; reflexivity|right; auto]. }
    eapply inside_child; [exact X|constructor].
Qed.

(** ** Statements, literals and functions of a file without errors *)
(** [ExprStmt::expr] is the expression of the statement if it is a binary one
    or a literal (and nothing otherwise); [semicolon_token] is the semicolon. *)
Theorem C51_statement : forall t g cs,
  tlen t < u32_bound -> parse_text t = Ok (g, []) -> inside (GNode EXPR_STMT cs) g ->
  exists k es rest, parts cs = GNode k es :: rest /\
    option_map expr_syntax (stmt_expr (ExprStmt_ (GNode EXPR_STMT cs))) =
      (if kind_eqb k BIN_EXPR || kind_eqb k LITERAL then Some (GNode k es) else None) /\
    (rest = [] /\ semicolon_token (ExprStmt_ (GNode EXPR_STMT cs)) = None \/
     exists w, rest = [GTok SEMICOLON w] /\ semicolon_token (ExprStmt_ (GNode EXPR_STMT cs)) = Some (GTok SEMICOLON w)).
Proof.
  intros t g cs Hs P H. pose proof (quiet_node _ _ _ _ Hs P H) as (e & s & E & (k & es & ->) & S).
  unfold stmt_expr, semicolon_token. cbn [stmt_syntax]. rewrite child_of_parts, token_of_parts by reflexivity.
  apply parts_of in E. destruct S as [-> | ->]; parts_shape; (eexists _, _, _; split; [reflexivity|]; split).
  1, 3: unfold child, node_children; cbn [gchildren filter is_node find_map]; unfold cast_expr; cbn [gkind]; destruct k; reflexivity.
  - left. auto.
  - right. eexists. split; reflexivity.
Qed.
(** [true_token] and [false_token] tell the two boolean literals from the rest. *)
Theorem C51_literal : forall t g cs,
  tlen t < u32_bound -> parse_text t = Ok (g, []) -> inside (GNode LITERAL cs) g ->
  exists x, parts cs = [x] /\
    true_token (Literal_ (GNode LITERAL cs)) = (if kind_eqb (gkind x) TRUE_KW then Some x else None) /\
    false_token (Literal_ (GNode LITERAL cs)) = (if kind_eqb (gkind x) FALSE_KW then Some x else None).
Proof.
  intros t g cs Hs P H. pose proof (quiet_node _ _ _ _ Hs P H) as F. cbn [node_form] in F.
  unfold true_token, false_token. cbn [literal_syntax].
  rewrite (token_of_parts LITERAL cs TRUE_KW), (token_of_parts LITERAL cs FALSE_KW) by reflexivity.
  destruct F as [(k & E & Hk)|(a & E)]; apply parts_of in E; parts_shape; eexists; (split; [reflexivity|]); cbn.
  - cbn in Hk. intuition (subst; reflexivity).
  - auto.
Qed.
(** [FunctionDef::fun_token] is the keyword.  Its other accessors, and those of
    a script, find nothing in any file without errors: what they look for is
    one level further down. *)
Theorem C51_function : forall t g cs,
  tlen t < u32_bound -> parse_text t = Ok (g, []) -> inside (GNode FUNCTION_DEF cs) g ->
  let f := FunctionDef_ (GNode FUNCTION_DEF cs) in
  exists w rest, parts cs = GTok FUN_KW w :: rest /\ fun_token f = Some (GTok FUN_KW w).
Proof.
  intros t g cs Hs P H f. pose proof (quiet_node _ _ _ _ Hs P H) as (ps & r & b & E & R).
  unfold fun_token, f. cbn [function_syntax]. rewrite token_of_parts by reflexivity.
  apply parts_of in E. parts_shape. eexists _, _. split; [reflexivity|]. reflexivity.
Qed.
Theorem C51_accessors_that_find_nothing : forall t g cs,
  tlen t < u32_bound -> parse_text t = Ok (g, []) ->
  (inside (GNode FUNCTION_DEF cs) g -> let f := FunctionDef_ (GNode FUNCTION_DEF cs) in
     ident_token f = None /\ expr_stmts f = [] /\ function_l_paren f = None /\ function_r_paren f = None /\
     function_l_brace f = None /\ function_r_brace f = None) /\
  (inside (GNode SCRIPT_DEF cs) g -> let s := ScriptDef_ (GNode SCRIPT_DEF cs) in
     function_defs s = [] /\ script_l_brace s = None /\ script_r_brace s = None).
Proof.
  intros t g cs Hs P. split; intros H; pose proof (quiet_node _ _ _ _ Hs P H) as F; cbn [node_form] in F; cbv zeta.
  - destruct F as (ps & r & b & E & R).
    unfold ident_token, expr_stmts, function_l_paren, function_r_paren, function_l_brace, function_r_brace. cbn [function_syntax].
    rewrite (token_of_parts FUNCTION_DEF cs IDENT), (token_of_parts FUNCTION_DEF cs L_PAREN), (token_of_parts FUNCTION_DEF cs R_PAREN),
      (token_of_parts FUNCTION_DEF cs L_BRACE), (token_of_parts FUNCTION_DEF cs R_BRACE), (children_of_parts _ FUNCTION_DEF cs) by reflexivity.
    apply parts_of in E.
    destruct R as [-> |(y & ->)]; cbn [app] in E; parts_shape; repeat split; reflexivity.
  - unfold function_defs, script_l_brace, script_r_brace. cbn [script_syntax].
    rewrite (token_of_parts SCRIPT_DEF cs L_BRACE), (token_of_parts SCRIPT_DEF cs R_BRACE), (children_of_parts _ SCRIPT_DEF cs) by reflexivity.
    destruct F as [(is & E)|E]; apply parts_of in E; parts_shape; repeat split; reflexivity.
Qed.

(** ** Casts: a node is a typed node of one type at most, the one of its kind,
    and the typed node holds the node itself. *)
Theorem C51_casts : forall g,
  (forall f, cast_source_file g = Some f <-> gkind g = SOURCE_FILE /\ f = SourceFile_ g) /\
  (forall s, cast_script g = Some s <-> gkind g = SCRIPT_DEF /\ script_syntax s = g) /\
  (forall f, cast_function g = Some f <-> gkind g = FUNCTION_DEF /\ function_syntax f = g) /\
  (forall s, cast_expr_stmt g = Some s <-> gkind g = EXPR_STMT /\ stmt_syntax s = g) /\
  (forall b, cast_bin g = Some b <-> gkind g = BIN_EXPR /\ bin_syntax b = g) /\
  (forall l, cast_literal g = Some l <-> gkind g = LITERAL /\ literal_syntax l = g) /\
  (forall e, cast_expr g = Some e <->
     (exists b, cast_bin g = Some b /\ e = EBin b) \/ (exists l, cast_literal g = Some l /\ e = ELit l)).
Proof.
  intros g. unfold cast_source_file, cast_script, cast_function, cast_expr_stmt, cast_bin, cast_literal, cast_expr.
  repeat match goal with |- _ /\ _ => split end.
  1-6: intros x; match goal with |- context [kind_eqb ?a ?b] => destruct (kind_eqb a b) eqn:E end;
    [apply kind_eqb_eq in E; split;
      [intros H; injection H as <-; auto | intros [_ H]; destruct x; cbn in H; subst; reflexivity || congruence]
    |split; [discriminate|intros [H _]; apply kind_eqb_eq in H; congruence]].
  intros e. split.
  - intros H. destruct (gkind g) eqn:E; try discriminate; injection H as <-;
      (left; eexists; split; [|reflexivity]; reflexivity) || (right; eexists; split; [|reflexivity]; reflexivity).
  - intros [(b & H & ->)|(l & H & ->)]; (match type of H with context [kind_eqb ?a ?b] => destruct (kind_eqb a b) eqn:E end; [|discriminate]);
      apply kind_eqb_eq in E; rewrite E; injection H as <-; reflexivity.
Qed.

(** ** Typed tokens of a parsed file: their texts are what their names say.
    Every hexadecimal string is a [ByteString]; nothing is a [HexString]. *)
Theorem C51_tokens : forall t g errs x,
  tlen t < u32_bound -> ascii_strings t -> parse_text t = Ok (g, errs) -> inside x g -> is_node x = false ->
  (forall c, option_map whitespace_text (cast_whitespace x) = Some c <-> c = gtext x /\ lexeme WHITESPACE c) /\
  (forall c, option_map comment_text (cast_comment x) = Some c <-> c = gtext x /\ lexeme COMMENT c) /\
  (forall c, option_map byte_string_text (cast_byte_string x) = Some c <-> c = gtext x /\ lexeme BYTE_STRING c) /\
  (forall c, option_map integer_text (cast_integer x) = Some c <->
     c = gtext x /\ lexeme INTEGER_NUMBER c /\ gkind x <> DIEM_ADDRESS) /\
  cast_hex_string x = None.
Proof.
  intros t g errs x Hs Ha P Hin Hx. destruct x as [|k w]; [discriminate|]. clear Hx.
  destruct (C19_leaves_are_the_tokens t g errs Hs Ha P) as (ws & St & F).
  assert (L : In (k, w) (gleaves g)).
  { revert Hin. clear. intros H. induction H as [|k' cs c I H IH]; [left; reflexivity|].
    cbn [gleaves]. apply in_flat_map. eauto. }
  assert (S : exists k', lexeme k' w /\ (k = k' \/ k' = INTEGER_NUMBER /\ k = DIEM_ADDRESS)).
  { revert L. assert (X : Forall (fun p => lexeme (fst p) (snd p)) ws) by (clear -St; induction St; constructor; auto).
    clear -F X. induction F as [|a b la lb R F IH]; [intros []|]. apply Forall_cons_iff in X as [X Xs].
    intros [-> |H]; [|auto]. destruct R as [R1 R2]. cbn in R1, R2. exists (fst b). rewrite R1. split; [exact X|].
    destruct R2 as [R2|[R2 R3]]; auto. }
  destruct S as (k' & Lx & K).
  assert (T : gtext (GTok k w) = w) by (cbn; apply app_nil_r). rewrite T.
  assert (U : forall k2, lexeme k2 w -> k2 = k') by (intros k2 H; exact (C18_lexeme_kinds_unique _ _ _ H Lx)).
  unfold cast_whitespace, cast_comment, cast_byte_string, cast_integer, cast_hex_string, cast_tok. cbn [gkind].
  assert (G : forall {A} (mk : green -> A) (f : A -> text) k2 (Q : Prop), (f (mk (GTok k w)) = w) ->
     (k = k2 <-> k2 = k' /\ Q) ->
     forall c, option_map f (if kind_eqb k k2 then Some (mk (GTok k w)) else None) = Some c <-> c = w /\ lexeme k2 c /\ Q).
  { intros A mk f k2 Q E1 E2 c. destruct (kind_eqb k k2) eqn:E; cbn [option_map].
    - apply kind_eqb_eq in E. apply E2 in E as [-> HQ]. rewrite E1. split; [intros H; injection H as <-; auto|intros (-> & _); reflexivity].
    - split; [discriminate|]. intros (-> & H & HQ). apply U in H. assert (k = k2) by (apply E2; auto).
      apply kind_eqb_eq in H0. congruence. }
  assert (G1 : forall {A} (mk : green -> A) (f : A -> text) k2, (f (mk (GTok k w)) = w) -> (k = k2 <-> k2 = k') ->
     forall c, option_map f (if kind_eqb k k2 then Some (mk (GTok k w)) else None) = Some c <-> c = w /\ lexeme k2 c).
  { intros A mk f k2 E1 E2 c. rewrite (G A mk f k2 True); [tauto|exact E1|tauto]. }
  split; [|split; [|split; [|split]]].
  - apply G1; [reflexivity|]. destruct K as [-> |[-> ->]]; split; congruence.
  - apply G1; [reflexivity|]. destruct K as [-> |[-> ->]]; split; congruence.
  - apply G1; [reflexivity|]. destruct K as [-> |[-> ->]]; split; congruence.
  - apply (G integer_token IntegerNumber_ integer_text INTEGER_NUMBER (k <> DIEM_ADDRESS)); [reflexivity|].
    destruct K as [-> |[-> ->]]; split; try congruence; intuition congruence.
  - destruct (kind_eqb k HEX_STRING) eqn:E; [|reflexivity]. apply kind_eqb_eq in E. subst k. exfalso.
    destruct K as [<- |[_ K]]; [|discriminate]. clear -Lx. inversion Lx; subst; cbn in *;
      repeat match goal with H : _ \/ _ |- _ => destruct H as [H|H] end; congruence.
Qed.

(** Such nodes exist. *)
Definition typed_sample : text := `"script { fun f() { true; 1 + 2 } }".
Example typed_sample_nodes : match parse_text typed_sample with
  | Ok (g, []) => match find_kind SCRIPT_DEF g, find_kind FUNCTION_DEF g, find_kind EXPR_STMT g, find_kind LITERAL g with
      | Some _, Some _, Some (GNode _ cs), Some (GNode _ ls) =>
          semicolon_token (ExprStmt_ (GNode EXPR_STMT cs)) <> None /\ true_token (Literal_ (GNode LITERAL ls)) <> None /\
          length (script_defs (SourceFile_ g)) = 1%nat
      | _, _, _, _ => False end
  | _ => False end.
Proof. vm_compute. repeat split; discriminate. Qed.
Definition token_sample : text := `"script { fun f() { x""0a""; 0x1 + 2 } } // end".
Example typed_sample_tokens : match parse_text token_sample with
  | Ok (g, []) => map snd (filter (fun p => kind_eqb (fst p) BYTE_STRING || kind_eqb (fst p) COMMENT || kind_eqb (fst p) INTEGER_NUMBER) (gleaves g)) =
      [`"x""0a"""; `"0x1"; `"2"; `"// end"]
  | _ => False end.
Proof. vm_compute. reflexivity. Qed.

Print Assumptions C51_ok.
Print Assumptions C51_scripts.
Print Assumptions C51_statement.
Print Assumptions C51_literal.
Print Assumptions C51_function.
Print Assumptions C51_accessors_that_find_nothing.
Print Assumptions C51_casts.
Print Assumptions C51_tokens.
