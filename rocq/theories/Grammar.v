(** Model of crates/parser/src/grammar.rs and crates/parser/src/grammar/**.
    Each definition is one Rust function (or the body of one of its loops). *)
From Coq Require Import String.
From Verif Require Import Base Kinds TokenSet Lexer Parser.
Local Open Scope N_scope.
Open Scope prog_scope.

(** ** Token sets *)
(** grammar/items.rs:12-13 *)
Definition TOP_LEVEL_ITEM_RECOVERY_SET := [ADDRESS_KW; MODULE_KW; SCRIPT_KW].
(** grammar/items.rs:15-25 *)
Definition ITEM_RECOVERY_SET := [STRUCT_KW; MODULE_KW; FUN_KW; SEMICOLON].
(** grammar/paths.rs:7 *)
Definition PATH_FIRST := [IDENT].
(** grammar/types.rs:7 *)
Definition TYPE_FIRST := PATH_FIRST ++ [AMP].
(** grammar/types.rs:9-13 *)
Definition TYPE_RECOVERY_SET := [R_PAREN; COMMA].
(** grammar/params.rs:7 *)
Definition PARAM_FIRST := TYPE_FIRST.
(** grammar/expressions/atom.rs:20-21 *)
Definition EXPR_STMT_RECOVERY := [PLUS; MINUS; STAR; SLASH; SEMICOLON; R_PAREN].
(** grammar/expressions/atom.rs:23-32 *)
Definition LITERAL_FIRST := [TRUE_KW; FALSE_KW; INTEGER_NUMBER; HEX_STRING; BYTE_STRING; ATSIGN].
(** grammar/patterns.rs:3-14 *)
Definition PATTERN_FIRST :=
  (LITERAL_FIRST ++ PATH_FIRST) ++ [MUT_KW; L_PAREN; L_BRACK; AMP; WILDCARD; MINUS].
(** grammar/patterns.rs:68-69 *)
Definition PAT_RECOVERY_SET := [LET_KW; IF_KW; WHILE_KW; R_PAREN; COMMA; EQ].

(** ** Recursive functions, as calls *)
(** grammar/expressions.rs:17-19 [expr] *)
Definition expr : prog (option cmark) := call (F_expr_bp 1).
Definition type_ : prog unit := call F_type.
Definition pattern : prog unit := call F_pattern.
Definition block_contents : prog unit := call F_block_contents.
Definition expr_block_contents : prog unit := call F_expr_block_contents.

(** ** grammar.rs *)
(** grammar.rs:43-51 [name_r] *)
Definition name_r (recovery : list kind) : prog unit :=
  a <- at_ IDENT ;;
  if a then m <- start ;; bump IDENT ;; complete m NAME ;; Ret tt
  else err_recover (`"expected a name") recovery.
(** grammar.rs:39-41 [name] *)
Definition name : prog unit := name_r [].
(** grammar.rs:53-61 [name_ref] *)
Definition name_ref : prog unit :=
  a <- at_ IDENT ;;
  if a then m <- start ;; bump IDENT ;; complete m NAME_REF ;; Ret tt
  else err_and_bump (`"expected identifier").
(** grammar.rs:24-31 [block_expr_unchecked] *)
Definition block_expr_unchecked : prog cmark :=
  assert_p (at_ L_BRACE) ;;
  m <- start ;;
  bump L_BRACE ;;
  block_contents ;;
  expect R_BRACE ;;
  complete m BLOCK_EXPR.
(** grammar.rs:16-22 [block_expr] *)
Definition block_expr : prog unit :=
  a <- at_ L_BRACE ;;
  if negb a then error (`"expected a block") else block_expr_unchecked ;; Ret tt.
(** grammar.rs:81-89 [error_block] *)
Definition error_block (msg : text) : prog unit :=
  assert_p (at_ L_BRACE) ;;
  m <- start ;;
  error msg ;;
  bump L_BRACE ;;
  expr_block_contents ;;
  eat R_BRACE ;;
  complete m ERROR ;; Ret tt.

(** ** grammar/paths.rs.  [Mode] is never inspected and is left out. *)
(** grammar/paths.rs:94-101 [is_path_start] *)
Definition is_path_start : prog bool := c <- current ;; Ret (kind_eqb c IDENT).
(** grammar/paths.rs:47-92 [path_segment] *)
Definition path_segment (first : bool) : prog unit :=
  m <- start ;;
  (if first then eat COLON_COLON ;; Ret tt else Ret tt) ;;
  let empty := negb first in
  c <- current ;;
  if kind_eqb c IDENT then name_ref ;; complete m PATH_SEGMENT ;; Ret tt
  else
    err_recover (`"expected identifier") ITEM_RECOVERY_SET ;;
    if empty then abandon m else complete m PATH_SEGMENT ;; Ret tt.
(** grammar/paths.rs:32-45 [path_for_qualifier] *)
Definition path_for_qualifier_body (qual : cmark) : prog unit :=
  k2 <- nth_ 2 ;;
  let use_tree := kind_eqb k2 STAR || kind_eqb k2 L_BRACE in
  a <- at_ COLON_COLON ;;
  if a && negb use_tree then
    path <- precede qual ;;
    bump COLON_COLON ;;
    path_segment false ;;
    path <- complete path PATH ;;
    call (F_path_for_qualifier path)
  else Ret tt.
(** grammar/paths.rs:25-30 [path]; 17-23 [type_path], [expr_path] *)
Definition path : prog unit :=
  m <- start ;;
  path_segment true ;;
  qual <- complete m PATH ;;
  call (F_path_for_qualifier qual).
Definition type_path : prog unit := path.
Definition expr_path : prog unit := path.

(** ** grammar/types.rs *)
(** grammar/types.rs:15-19 [ascription] *)
Definition ascription : prog unit := assert_p (at_ COLON) ;; bump COLON ;; type_.
(** grammar/types.rs:32-39 [ref_type] *)
Definition ref_type : prog unit :=
  assert_p (at_ AMP) ;;
  m <- start ;;
  bump AMP ;;
  eat MUT_KW ;;
  type_ ;;
  complete m REF_TYPE ;; Ret tt.
(** grammar/types.rs:41-56 [path_type] *)
Definition path_type : prog unit :=
  assert_p is_path_start ;;
  m <- start ;;
  type_path ;;
  complete m PATH_TYPE ;; Ret tt.
(** grammar/types.rs:21-30 [type_] *)
Definition type_body : prog unit :=
  c <- current ;;
  if kind_eqb c AMP then ref_type
  else
    ps <- is_path_start ;;
    if ps then path_type else err_recover (`"expected type") TYPE_RECOVERY_SET.

(** ** grammar/params.rs *)
(** grammar/params.rs:45-55 [param] *)
Definition param (m : nat) : prog unit :=
  name ;;
  a <- at_ COLON ;;
  (if a then ascription else error (`"missing type for function parameter")) ;;
  complete m PARAM ;; Ret tt.
(** grammar/params.rs:14-35; [param_marker] is always [None] *)
Definition params_body : prog unit :=
  c <- andp (notp (at_ EOF)) (notp (at_ R_PAREN)) ;;
  if negb c then Ret tt
  else
    m <- start ;;
    f <- at_ts PARAM_FIRST ;;
    if negb f then error (`"expected value parameter") ;; abandon m
    else
      param m ;;
      a <- at_ R_PAREN ;;
      (if negb a then expect COMMA ;; Ret tt else Ret tt) ;;
      call F_params.
(** grammar/params.rs:9-43 [param_list] *)
Definition param_list : prog unit :=
  m <- start ;;
  bump L_PAREN ;;
  call F_params ;;
  expect R_PAREN ;;
  complete m PARAM_LIST ;; Ret tt.

(** ** grammar/generic_params.rs *)
(** grammar/generic_params.rs:77-95 [type_bound] *)
Definition type_bound : prog bool :=
  m <- start ;;
  c <- current ;;
  if kind_eqb c IDENT then name ;; complete m TYPE_BOUND ;; Ret true
  else abandon m ;; Ret false.
(** grammar/generic_params.rs:69-73 *)
Definition bounds_body : prog unit :=
  b <- type_bound ;;
  if b then
    e <- eat PLUS ;;
    if negb e then Ret tt else call F_bounds
  else Ret tt.
(** grammar/generic_params.rs:68-75 [bounds_without_colon_m] *)
Definition bounds_without_colon_m (m : nat) : prog cmark :=
  call F_bounds ;; complete m TYPE_BOUND_LIST.
(** grammar/generic_params.rs:63-66 [bounds_without_colon] *)
Definition bounds_without_colon : prog unit :=
  m <- start ;; bounds_without_colon_m m ;; Ret tt.
(** grammar/generic_params.rs:57-61 [bounds] *)
Definition bounds : prog unit :=
  assert_p (at_ COLON) ;; bump COLON ;; bounds_without_colon.
(** grammar/generic_params.rs:40-53 [type_param] *)
Definition type_param (m : nat) : prog unit :=
  assert_p (at_ IDENT) ;;
  name ;;
  a <- at_ COLON ;;
  (if a then bounds else Ret tt) ;;
  complete m TYPE_PARAM ;; Ret tt.
(** grammar/generic_params.rs:27-36 [generic_param] *)
Definition generic_param : prog unit :=
  m <- start ;;
  c <- current ;;
  if kind_eqb c IDENT then type_param m
  else abandon m ;; err_and_bump (`"expected type parameter").
(** grammar/generic_params.rs:17-22 *)
Definition generic_params_body : prog unit :=
  c <- andp (notp (at_ EOF)) (notp (at_ GT)) ;;
  if negb c then Ret tt
  else
    generic_param ;;
    b <- andp (notp (at_ GT)) (notp (expect COMMA)) ;;
    if b then Ret tt else call F_generic_params.
(** grammar/generic_params.rs:12-25 [generic_param_list] *)
Definition generic_param_list : prog unit :=
  assert_p (at_ LT) ;;
  m <- start ;;
  bump LT ;;
  call F_generic_params ;;
  expect GT ;;
  complete m GENERIC_PARAM_LIST ;; Ret tt.
(** grammar/generic_params.rs:4-8 [opt_generic_param_list] *)
Definition opt_generic_param_list : prog unit :=
  a <- at_ LT ;; if a then generic_param_list else Ret tt.

(** ** grammar/patterns.rs *)
(** grammar/patterns.rs:210-215 [ident_pat] *)
Definition ident_pat : prog unit :=
  m <- start ;; eat MUT_KW ;; name ;; complete m IDENT_PAT ;; Ret tt.
(** grammar/patterns.rs:184-189 [rest_pat] *)
Definition rest_pat : prog unit :=
  assert_p (at_ DOTDOT) ;; m <- start ;; bump DOTDOT ;; complete m REST_PAT ;; Ret tt.
(** grammar/patterns.rs:151-156 [wildcard_pat] *)
Definition wildcard_pat : prog unit :=
  assert_p (at_ WILDCARD) ;; m <- start ;; bump WILDCARD ;; complete m WILDCARD_PAT ;; Ret tt.
(** grammar/patterns.rs:122-139, the default arm of the loop *)
Definition record_pat_field : prog unit :=
  m <- start ;;
  c <- current ;;
  named <- (if kind_eqb c IDENT then k <- nth_ 1 ;; Ret (kind_eqb k COLON) else Ret false) ;;
  (if named then name_ref ;; bump COLON ;; pattern else ident_pat) ;;
  complete m RECORD_PAT_FIELD ;; Ret tt.
(** grammar/patterns.rs:115-144; the arm [T![.] if p.at(T![..])] performs the
    guard's lookup *)
Definition record_pat_fields_body : prog unit :=
  w <- andp (notp (at_ EOF)) (notp (at_ R_BRACE)) ;;
  if negb w then Ret tt
  else
    c <- current ;;
    rest <- (if kind_eqb c DOT then at_ DOTDOT else Ret false) ;;
    (if rest then bump DOTDOT
     else if kind_eqb c L_BRACE then error_block (`"expected ident")
     else record_pat_field) ;;
    a <- at_ R_BRACE ;;
    (if negb a then expect COMMA ;; Ret tt else Ret tt) ;;
    call F_record_pat_fields.
(** grammar/patterns.rs:111-147 [record_pat_field_list] *)
Definition record_pat_field_list : prog unit :=
  assert_p (at_ L_BRACE) ;;
  m <- start ;;
  bump L_BRACE ;;
  call F_record_pat_fields ;;
  expect R_BRACE ;;
  complete m RECORD_PAT_FIELD_LIST ;; Ret tt.
(** grammar/patterns.rs:76-88 [path_pat] *)
Definition path_pat : prog unit :=
  assert_p is_path_start ;;
  m <- start ;;
  expr_path ;;
  c <- current ;;
  k <- (if kind_eqb c L_BRACE then record_pat_field_list ;; Ret RECORD_PAT
        else Ret PATH_PAT) ;;
  complete m k ;; Ret tt.
(** grammar/patterns.rs:30-43 *)
Definition tuple_pat_body (has_comma has_pat has_rest : bool) : prog (bool * bool * bool) :=
  w <- andp (notp (at_ EOF)) (notp (at_ R_PAREN)) ;;
  if negb w then Ret (has_comma, has_pat, has_rest)
  else
    f <- at_ts PATTERN_FIRST ;;
    if negb f then error (`"expected a pattern") ;; Ret (has_comma, true, has_rest)
    else
      r <- at_ DOTDOT ;;
      let has_rest := has_rest || r in
      pattern ;;
      a <- at_ R_PAREN ;;
      if negb a then expect COMMA ;; call (F_tuple_pat true true has_rest)
      else call (F_tuple_pat has_comma true has_rest).
(** grammar/patterns.rs:23-47 [tuple_pat] *)
Definition tuple_pat : prog unit :=
  assert_p (at_ L_PAREN) ;;
  m <- start ;;
  bump L_PAREN ;;
  flags <- call (F_tuple_pat false false false) ;;
  expect R_PAREN ;;
  let '(has_comma, has_pat, has_rest) := flags in
  complete m (if negb has_comma && negb has_rest && has_pat then PAREN_PAT else TUPLE_PAT) ;;
  Ret tt.
(** grammar/patterns.rs:49-66 [pattern] *)
Definition pattern_body : prog unit :=
  c <- current ;;
  if kind_eqb c MUT_KW then ident_pat
  else if kind_eqb c IDENT then
    k <- nth_ 1 ;; if kind_eqb k L_BRACE then path_pat else ident_pat
  else
    rest <- (if kind_eqb c DOT then at_ DOTDOT else Ret false) ;;
    if rest then rest_pat
    else if kind_eqb c WILDCARD then wildcard_pat
    else if kind_eqb c L_PAREN then tuple_pat
    else err_recover (`"expected pattern") PAT_RECOVERY_SET.

(** ** grammar/expressions/atom.rs *)
(** grammar/expressions/atom.rs:34-43 [bump_address] *)
Definition bump_address : prog bool :=
  c <- current ;;
  if kind_eqb c IDENT then bump IDENT ;; Ret true
  else
    hex <- (if kind_eqb c INTEGER_NUMBER
            then t <- current_text ;; Ret (starts_with t (`"0x")) else Ret false) ;;
    if hex then bump_remap DIEM_ADDRESS ;; Ret true else Ret false.
(** grammar/expressions/atom.rs:45-53 [address_lit] *)
Definition address_lit : prog cmark :=
  assert_p (at_ ATSIGN) ;;
  m <- start ;;
  bump ATSIGN ;;
  b <- bump_address ;;
  (if negb b then error_and_skip_until (`"expected address literal") EXPR_STMT_RECOVERY ;; Ret tt
   else Ret tt) ;;
  complete m ADDRESS_LIT.
(** grammar/expressions/atom.rs:55-67 [literal] *)
Definition literal : prog (option cmark) :=
  f <- at_ts LITERAL_FIRST ;;
  if negb f then Ret None
  else
    m <- start ;;
    c <- current ;;
    (if kind_eqb c ATSIGN then address_lit ;; Ret tt else bump_any) ;;
    done <- complete m LITERAL ;;
    Ret (Some done).

(** grammar/expressions.rs:222-254 *)
Definition record_expr_fields_body : prog unit :=
  w <- andp (notp (at_ EOF)) (notp (at_ R_BRACE)) ;;
  if negb w then Ret tt
  else
    m <- start ;;
    c <- current ;;
    (if kind_eqb c IDENT || kind_eqb c INTEGER_NUMBER then
       n <- nth_at 1 COLON ;;
       (if n then name_ref ;; expect COLON ;; Ret tt else Ret tt) ;;
       expr ;;
       complete m RECORD_EXPR_FIELD ;; Ret tt
     else if kind_eqb c L_BRACE then error_block (`"expected a field") ;; abandon m
     else err_and_bump (`"expected identifier") ;; abandon m) ;;
    a <- at_ R_BRACE ;;
    (if negb a then expect COMMA ;; Ret tt else Ret tt) ;;
    call F_record_expr_fields.
(** grammar/expressions.rs:218-257 [record_expr_field_list] *)
Definition record_expr_field_list : prog unit :=
  assert_p (at_ L_BRACE) ;;
  m <- start ;;
  bump L_BRACE ;;
  call F_record_expr_fields ;;
  expect R_BRACE ;;
  complete m RECORD_EXPR_FIELD_LIST ;; Ret tt.
(** grammar/expressions/atom.rs:115-136 [path_expr] *)
Definition path_expr : prog cmark :=
  assert_p is_path_start ;;
  m <- start ;;
  expr_path ;;
  c <- current ;;
  if kind_eqb c L_BRACE then record_expr_field_list ;; complete m RECORD_EXPR
  else complete m PATH_EXPR.
(** grammar/expressions/atom.rs:149-169 *)
Definition paren_body : prog bool :=
  w <- andp (notp (at_ EOF)) (notp (at_ R_PAREN)) ;;
  if negb w then Ret true
  else
    e <- expr ;;
    match e with
    | None => error_and_skip_until (`"expected expression") [R_PAREN] ;; Ret false
    | Some _ => call F_paren
    end.
(** grammar/expressions/atom.rs:144-174 [paren_expr] *)
Definition paren_expr : prog cmark :=
  assert_p (at_ L_PAREN) ;;
  m <- start ;;
  expect L_PAREN ;;
  ok <- call F_paren ;;
  if ok then expect R_PAREN ;; complete m PAREN_EXPR
  else complete m PAREN_EXPR.
(** grammar/expressions/atom.rs:96-113 [atom_expr] *)
Definition atom_expr : prog (option cmark) :=
  l <- literal ;;
  match l with
  | Some m => Ret (Some m)
  | None =>
      c <- current ;;
      if kind_eqb c IDENT then d <- path_expr ;; Ret (Some d)
      else if kind_eqb c L_PAREN then d <- paren_expr ;; Ret (Some d)
      else if kind_eqb c L_BRACE then d <- block_expr_unchecked ;; Ret (Some d)
      else d <- error_and_skip_until (`"expected expression") [SEMICOLON; R_PAREN] ;; Ret (Some d)
  end.

(** ** grammar/expressions.rs *)
(** grammar/expressions.rs:170-209 [current_op], as a table *)
Definition op_table : list (kind * N) :=
  [(PIPE, 6); (GT, 5); (EQ, 1); (LT, 5); (PLUS, 10); (CARET, 7); (MOD, 11); (AMP, 8);
   (SLASH, 11); (STAR, 11); (MINUS, 10)].
Definition current_op : prog (N * kind) :=
  c <- current ;;
  Ret (match alookup kind_eqb c op_table with Some bp => (bp, c) | None => (0, ATSIGN) end).
(** grammar/expressions.rs:76-88 *)
Definition args_body : prog unit :=
  w <- andp (notp (at_ R_PAREN)) (notp (at_ EOF)) ;;
  if negb w then Ret tt
  else
    e <- expr ;;
    match e with
    | None => Ret tt
    | Some _ =>
        b <- andp (notp (at_ R_PAREN)) (notp (expect COMMA)) ;;
        if b then Ret tt else call F_args
    end.
(** grammar/expressions.rs:72-91 [arg_list] *)
Definition arg_list : prog unit :=
  assert_p (at_ L_PAREN) ;;
  m <- start ;;
  bump L_PAREN ;;
  call F_args ;;
  eat R_PAREN ;;
  complete m ARG_LIST ;; Ret tt.
(** grammar/expressions.rs:53-58 [call_expr] *)
Definition call_expr (lhs : cmark) : prog cmark :=
  assert_p (at_ L_PAREN) ;;
  m <- precede lhs ;;
  arg_list ;;
  complete m CALL_EXPR.
(** grammar/expressions.rs:60-70 [field_expr] *)
Definition field_expr (lhs : cmark) : prog cmark :=
  assert_p (at_ DOT) ;;
  m <- precede lhs ;;
  bump DOT ;;
  a <- at_ IDENT ;;
  (if a then name_ref else error (`"expected field name")) ;;
  complete m DOT_EXPR.
(** grammar/expressions.rs:42-51 [postfix_expr] *)
Definition postfix_body (lhs : cmark) : prog cmark :=
  c <- current ;;
  if kind_eqb c L_PAREN then l <- call_expr lhs ;; call (F_postfix l)
  else if kind_eqb c DOT then l <- field_expr lhs ;; call (F_postfix l)
  else Ret lhs.
(** grammar/expressions.rs:93-109 [lhs] *)
Definition lhs_ : prog (option cmark) :=
  c <- current ;;
  if kind_eqb c STAR || kind_eqb c BANG || kind_eqb c MINUS then
    m <- start ;;
    bump_any ;;
    call (F_expr_bp 255) ;;
    d <- complete m PREFIX_EXPR ;;
    Ret (Some d)
  else
    a <- atom_expr ;;
    match a with
    | None => Ret None
    | Some l => d <- (call (F_postfix l) : prog cmark) ;; Ret (Some d)
    end.
(** grammar/expressions.rs:22-40 [expr_bp]; the loop is [F_expr_bp_loop] *)
Definition expr_bp_body (bp : N) : prog (option cmark) :=
  l <- lhs_ ;;
  match l with
  | None => Ret None
  | Some l => call (F_expr_bp_loop bp l)
  end.
Definition expr_bp_loop_body (bp : N) (lhs : cmark) : prog (option cmark) :=
  o <- current_op ;;
  let op_bp := fst o in
  let op := snd o in
  if op_bp <? bp then Ret (Some lhs)
  else
    m <- precede lhs ;;
    bump op ;;
    call (F_expr_bp (op_bp + 1)) ;;
    lhs <- complete m BIN_EXPR ;;
    call (F_expr_bp_loop bp lhs).
(** grammar/expressions.rs:130-140 and 151-161 *)
Definition stmt_semi (with_semi : semi) : prog unit :=
  match with_semi with
  | SemiYes => expect SEMICOLON ;; Ret tt
  | SemiNo => Ret tt
  | SemiOptional => a <- at_ SEMICOLON ;; if a then eat SEMICOLON ;; Ret tt else Ret tt
  end.
(** grammar/expressions.rs:118-142 [let_stmt] *)
Definition let_stmt (m : nat) (with_semi : semi) : prog unit :=
  assert_p (at_ LET_KW) ;;
  bump LET_KW ;;
  pattern ;;
  a <- at_ COLON ;;
  (if a then ascription else Ret tt) ;;
  e <- eat EQ ;;
  (if e then expr ;; Ret tt else Ret tt) ;;
  stmt_semi with_semi ;;
  complete m LET_STMT ;; Ret tt.
(** grammar/expressions.rs:144-164 [stmt] *)
Definition stmt (with_semi : semi) : prog unit :=
  m <- start ;;
  a <- at_ LET_KW ;;
  if a then let_stmt m with_semi
  else
    expr ;;
    stmt_semi with_semi ;;
    complete m EXPR_STMT ;; Ret tt.
(** grammar/expressions.rs:259-267 [expr_block_contents] *)
Definition expr_block_contents_body : prog unit :=
  w <- andp (notp (at_ EOF)) (notp (at_ R_BRACE)) ;;
  if negb w then Ret tt
  else
    a <- at_ SEMICOLON ;;
    if a then bump SEMICOLON ;; call F_expr_block_contents
    else stmt SemiYes ;; call F_expr_block_contents.
(** grammar.rs:33-37 [block_contents] *)
Definition block_contents_body : prog unit :=
  w <- orp (at_ R_BRACE) (at_ EOF) ;;
  if w then Ret tt else stmt SemiOptional ;; call F_block_contents.

(** ** grammar/items.rs and grammar/items/adt.rs *)
(** grammar/items/adt.rs:59-70 [record_field] *)
Definition record_field : prog unit :=
  m <- start ;;
  a <- at_ IDENT ;;
  if a then name ;; expect COLON ;; type_ ;; complete m RECORD_FIELD ;; Ret tt
  else abandon m ;; err_and_bump (`"expected field declaration").
(** grammar/items/adt.rs:46-55 *)
Definition record_fields_body : prog unit :=
  w <- andp (notp (at_ R_BRACE)) (notp (at_ EOF)) ;;
  if negb w then Ret tt
  else
    record_field ;;
    a <- at_ R_BRACE ;;
    (if negb a then expect COMMA ;; Ret tt else Ret tt) ;;
    call F_record_fields.
(** grammar/items/adt.rs:42-57 [record_field_list] *)
Definition record_field_list : prog unit :=
  assert_p (at_ L_BRACE) ;;
  m <- start ;;
  bump L_BRACE ;;
  call F_record_fields ;;
  expect R_BRACE ;;
  complete m RECORD_FIELD_LIST ;; Ret tt.
(** grammar/items/adt.rs:4-38 [struct_] *)
Definition struct_ (m : nat) : prog unit :=
  bump STRUCT_KW ;;
  name_r ITEM_RECOVERY_SET ;;
  opt_generic_param_list ;;
  c <- current ;;
  (if kind_eqb c L_BRACE then record_field_list
   else if kind_eqb c SEMICOLON then bump SEMICOLON
   else error (`"expected `;` or `{`")) ;;
  complete m STRUCT ;; Ret tt.
(** grammar/items.rs:168-178 [opt_ret_type] *)
Definition opt_ret_type : prog bool :=
  a <- at_ COLON ;;
  if a then m <- start ;; bump COLON ;; type_ ;; complete m RET_TYPE ;; Ret true
  else Ret false.
(** grammar/items.rs:147-166 [function_def] *)
Definition function_def (m : nat) : prog unit :=
  assert_p (at_ FUN_KW) ;;
  bump FUN_KW ;;
  name_r ITEM_RECOVERY_SET ;;
  a <- at_ L_PAREN ;;
  (if a then param_list else error (`"expected function arguments")) ;;
  opt_ret_type ;;
  block_expr ;;
  complete m FUNCTION_DEF ;; Ret tt.
(** grammar/items.rs:135-145 [opt_item]; it always returns [Ok(())] *)
Definition opt_item (m : nat) : prog unit :=
  c <- current ;;
  if kind_eqb c FUN_KW then function_def m
  else if kind_eqb c STRUCT_KW then struct_ m
  else error (`"expected an item") ;; complete m ERROR ;; Ret tt.
(** grammar/items.rs:105-132 [item]; the code after the [Ok] arm is dead *)
Definition item : prog unit :=
  m <- start ;;
  opt_item m ;;
  a <- at_ SEMICOLON ;;
  if a then err_and_bump (`"expected item, found `;`" ++ [cLF] ++ `"consider removing this semicolon")
  else Ret tt.
(** grammar/items.rs:98-100 *)
Definition items_body : prog unit :=
  w <- orp (at_ R_BRACE) (at_ EOF) ;;
  if w then Ret tt else item ;; call F_items.
(** grammar/items.rs:94-103 [item_list] *)
Definition item_list : prog unit :=
  assert_p (at_ L_BRACE) ;;
  m <- start ;;
  bump L_BRACE ;;
  call F_items ;;
  expect R_BRACE ;;
  complete m ITEM_LIST ;; Ret tt.
(** grammar/items.rs:55-61 [address_ident_r] *)
Definition address_ident_r (recovery : list kind) : prog unit :=
  m <- start ;;
  b <- bump_address ;;
  (if negb b then error_and_skip_until (`"expected valid address") recovery ;; Ret tt
   else Ret tt) ;;
  complete m ADDRESS_IDENT ;; Ret tt.
(** grammar/items.rs:63-80 [module] *)
Definition module : prog unit :=
  m <- start ;;
  assert_p (at_ MODULE_KW) ;;
  bump MODULE_KW ;;
  n <- nth_at 1 COLON_COLON ;;
  (if n then address_ident_r [COLON_COLON] ;; bump COLON_COLON else Ret tt) ;;
  name ;;
  a <- at_ L_BRACE ;;
  (if a then item_list
   else e <- eat SEMICOLON ;; if negb e then error (`"expected `;` or `{`") else Ret tt) ;;
  complete m MODULE_DEF ;; Ret tt.
(** grammar/items.rs:87-89 *)
Definition address_items_body : prog unit :=
  w <- orp (at_ R_BRACE) (at_ EOF) ;;
  if w then Ret tt else module ;; call F_address_items.
(** grammar/items.rs:82-92 [address_item_list] *)
Definition address_item_list : prog unit :=
  assert_p (at_ L_BRACE) ;;
  m <- start ;;
  bump L_BRACE ;;
  call F_address_items ;;
  expect R_BRACE ;;
  complete m ADDRESS_ITEM_LIST ;; Ret tt.
(** grammar/items.rs:43-53 [script] *)
Definition script : prog unit :=
  m <- start ;;
  assert_p (eat SCRIPT_KW) ;;
  a <- at_ L_BRACE ;;
  (if a then item_list
   else e <- eat SEMICOLON ;; if negb e then error (`"expected `;` or `{`") else Ret tt) ;;
  complete m SCRIPT_DEF ;; Ret tt.
(** grammar/items.rs:27-41 [address] *)
Definition address : prog unit :=
  m <- start ;;
  assert_p (eat ADDRESS_KW) ;;
  address_ident_r (TOP_LEVEL_ITEM_RECOVERY_SET ++ [L_BRACE]) ;;
  a <- at_ L_BRACE ;;
  (if a then address_item_list else error (`"expected `{`")) ;;
  complete m ADDRESS_DEF ;; Ret tt.

(** ** grammar.rs:63-79 [root] *)
Definition root_body : prog unit :=
  e <- at_ EOF ;;
  if e then Ret tt
  else
    a <- at_ MODULE_KW ;;
    if a then module ;; call F_root
    else
      b <- at_ SCRIPT_KW ;;
      if b then script ;; call F_root
      else
        d <- at_ ADDRESS_KW ;;
        if d then address ;; call F_root
        else
          c <- current ;;
          if is_trivia c then bump_any ;; call F_root
          else error (`"expected module or script") ;; call F_root.
Definition root : prog unit :=
  m <- start ;;
  call F_root ;;
  complete m SOURCE_FILE ;; Ret tt.

(** ** The recursive functions *)
Definition body (f : fn) : prog (fn_ret f) :=
  match f with
  | F_skip_until ts => skip_until_body ts
  | F_root => root_body
  | F_address_items => address_items_body
  | F_items => items_body
  | F_record_fields => record_fields_body
  | F_generic_params => generic_params_body
  | F_bounds => bounds_body
  | F_params => params_body
  | F_path_for_qualifier q => path_for_qualifier_body q
  | F_type => type_body
  | F_block_contents => block_contents_body
  | F_expr_block_contents => expr_block_contents_body
  | F_expr_bp bp => expr_bp_body bp
  | F_expr_bp_loop bp l => expr_bp_loop_body bp l
  | F_postfix l => postfix_body l
  | F_args => args_body
  | F_paren => paren_body
  | F_record_expr_fields => record_expr_fields_body
  | F_pattern => pattern_body
  | F_tuple_pat a b c => tuple_pat_body a b c
  | F_record_pat_fields => record_pat_fields_body
  end.

(** The recursion, bounded by [fuel]; TermProofs.v shows [parse_fuel] suffices. *)
Fixpoint run (fuel : nat) (f : fn) (s : pstate) : res (fn_ret f * pstate) :=
  match fuel with
  | O => Fuel
  | S fuel' => interp (run fuel') (body f) s
  end.

Definition parse_fuel (t : text) : nat := 64 * N.to_nat (10002 + tlen t).

(** crates/parser/src/lib.rs:38-44 [parse_with_lexer] *)
Definition parse_with_lexer (lx : lexer) : res (list event * list token) :=
  let! (_, s) := interp (run (parse_fuel (lx_text lx))) root (parser_new lx) in
  Ok (ps_events s, lx_all (ps_lexer s)).
