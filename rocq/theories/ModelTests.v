(** Generated by tools/gen_model_tests.py from
    crates/syntax/test_data/parser/{ok,err}: the model is run on the snapshot
    inputs and must give the snapshot outputs.  These are tests of the model's
    fidelity, not proofs of properties. *)
From Verif Require Import Base Kinds Lexer Parser Grammar Sink.
Local Open Scope N_scope.

(** The lines of [Parse::debug_dump] (crates/syntax/src/lib.rs:88-95): depth,
    kind, range and, for tokens, text. *)
Definition dump_line : Type := nat * kind * N * N * option text.
Fixpoint dump (depth : nat) (pos : N) (g : green) : N * list dump_line :=
  match g with
  | GTok k t => (pos + tlen t, [(depth, k, pos, pos + tlen t, Some t)])
  | GNode k cs =>
      let (end_, lines) :=
        (fix go pos cs := match cs with
          | [] => (pos, [])
          | c :: r => let (p1, l1) := dump (S depth) pos c in
                      let (p2, l2) := go p1 r in (p2, l1 ++ l2)
          end) pos cs in
      (end_, (depth, k, pos, end_, None) :: lines)
  end.
Definition debug_dump (t : text) : res (list dump_line * list (N * text)) :=
  let! (g, errs) := source_file_parse t in
  Ok (snd (dump 0 0 g), map (fun e => (se_pos e, se_msg e)) errs).

(** crates/syntax/test_data/parser/err/0001_binary_expression_recovery.move *)
Example snapshot_0001_binary_expression_recovery :
  debug_dump
    [115; 99; 114; 105; 112; 116; 32; 123; 10; 32; 32; 32; 32; 102; 117; 110; 32; 109; 97; 105; 110; 40; 41; 32; 123; 10; 32; 32; 32; 32; 32; 32; 32; 32; 40; 49; 32; 43; 32; 41; 32; 43; 32; 40; 49; 32; 43; 32; 41; 32; 43; 32; 49; 59; 10; 32; 32; 32; 32; 125; 10; 125] =
  Ok ([(0%nat, SOURCE_FILE, 0, 62, None);
       (1%nat, SCRIPT_DEF, 0, 62, None);
       (2%nat, SCRIPT_KW, 0, 6, Some [115; 99; 114; 105; 112; 116]);
       (2%nat, WHITESPACE, 6, 7, Some [32]);
       (2%nat, ITEM_LIST, 7, 62, None);
       (3%nat, L_BRACE, 7, 8, Some [123]);
       (3%nat, WHITESPACE, 8, 13, Some [10; 32; 32; 32; 32]);
       (3%nat, FUNCTION_DEF, 13, 60, None);
       (4%nat, FUN_KW, 13, 16, Some [102; 117; 110]);
       (4%nat, WHITESPACE, 16, 17, Some [32]);
       (4%nat, NAME, 17, 21, None);
       (5%nat, IDENT, 17, 21, Some [109; 97; 105; 110]);
       (4%nat, PARAM_LIST, 21, 23, None);
       (5%nat, L_PAREN, 21, 22, Some [40]);
       (5%nat, R_PAREN, 22, 23, Some [41]);
       (4%nat, WHITESPACE, 23, 24, Some [32]);
       (4%nat, BLOCK_EXPR, 24, 60, None);
       (5%nat, L_BRACE, 24, 25, Some [123]);
       (5%nat, WHITESPACE, 25, 34, Some [10; 32; 32; 32; 32; 32; 32; 32; 32]);
       (5%nat, EXPR_STMT, 34, 54, None);
       (6%nat, BIN_EXPR, 34, 53, None);
       (7%nat, BIN_EXPR, 34, 49, None);
       (8%nat, PAREN_EXPR, 34, 40, None);
       (9%nat, L_PAREN, 34, 35, Some [40]);
       (9%nat, BIN_EXPR, 35, 39, None);
       (10%nat, LITERAL, 35, 36, None);
       (11%nat, INTEGER_NUMBER, 35, 36, Some [49]);
       (10%nat, WHITESPACE, 36, 37, Some [32]);
       (10%nat, PLUS, 37, 38, Some [43]);
       (10%nat, WHITESPACE, 38, 39, Some [32]);
       (10%nat, ERROR, 39, 39, None);
       (9%nat, R_PAREN, 39, 40, Some [41]);
       (8%nat, WHITESPACE, 40, 41, Some [32]);
       (8%nat, PLUS, 41, 42, Some [43]);
       (8%nat, WHITESPACE, 42, 43, Some [32]);
       (8%nat, PAREN_EXPR, 43, 49, None);
       (9%nat, L_PAREN, 43, 44, Some [40]);
       (9%nat, BIN_EXPR, 44, 48, None);
       (10%nat, LITERAL, 44, 45, None);
       (11%nat, INTEGER_NUMBER, 44, 45, Some [49]);
       (10%nat, WHITESPACE, 45, 46, Some [32]);
       (10%nat, PLUS, 46, 47, Some [43]);
       (10%nat, WHITESPACE, 47, 48, Some [32]);
       (10%nat, ERROR, 48, 48, None);
       (9%nat, R_PAREN, 48, 49, Some [41]);
       (7%nat, WHITESPACE, 49, 50, Some [32]);
       (7%nat, PLUS, 50, 51, Some [43]);
       (7%nat, WHITESPACE, 51, 52, Some [32]);
       (7%nat, LITERAL, 52, 53, None);
       (8%nat, INTEGER_NUMBER, 52, 53, Some [49]);
       (6%nat, SEMICOLON, 53, 54, Some [59]);
       (5%nat, WHITESPACE, 54, 59, Some [10; 32; 32; 32; 32]);
       (5%nat, R_BRACE, 59, 60, Some [125]);
       (3%nat, WHITESPACE, 60, 61, Some [10]);
       (3%nat, R_BRACE, 61, 62, Some [125])],
      [(39, [101; 120; 112; 101; 99; 116; 101; 100; 32; 101; 120; 112; 114; 101; 115; 115; 105; 111; 110]); (48, [101; 120; 112; 101; 99; 116; 101; 100; 32; 101; 120; 112; 114; 101; 115; 115; 105; 111; 110])]).
Proof. vm_compute. reflexivity. Qed.

(** crates/syntax/test_data/parser/err/0002_address_lit_recovery.move *)
Example snapshot_0002_address_lit_recovery :
  debug_dump
    [115; 99; 114; 105; 112; 116; 32; 123; 10; 32; 32; 32; 32; 102; 117; 110; 32; 109; 97; 105; 110; 40; 41; 32; 123; 10; 32; 32; 32; 32; 32; 32; 32; 32; 64; 59; 10; 32; 32; 32; 32; 32; 32; 32; 32; 64; 48; 120; 59; 10; 32; 32; 32; 32; 125; 10; 125] =
  Ok ([(0%nat, SOURCE_FILE, 0, 57, None);
       (1%nat, SCRIPT_DEF, 0, 57, None);
       (2%nat, SCRIPT_KW, 0, 6, Some [115; 99; 114; 105; 112; 116]);
       (2%nat, WHITESPACE, 6, 7, Some [32]);
       (2%nat, ITEM_LIST, 7, 57, None);
       (3%nat, L_BRACE, 7, 8, Some [123]);
       (3%nat, WHITESPACE, 8, 13, Some [10; 32; 32; 32; 32]);
       (3%nat, FUNCTION_DEF, 13, 55, None);
       (4%nat, FUN_KW, 13, 16, Some [102; 117; 110]);
       (4%nat, WHITESPACE, 16, 17, Some [32]);
       (4%nat, NAME, 17, 21, None);
       (5%nat, IDENT, 17, 21, Some [109; 97; 105; 110]);
       (4%nat, PARAM_LIST, 21, 23, None);
       (5%nat, L_PAREN, 21, 22, Some [40]);
       (5%nat, R_PAREN, 22, 23, Some [41]);
       (4%nat, WHITESPACE, 23, 24, Some [32]);
       (4%nat, BLOCK_EXPR, 24, 55, None);
       (5%nat, L_BRACE, 24, 25, Some [123]);
       (5%nat, WHITESPACE, 25, 34, Some [10; 32; 32; 32; 32; 32; 32; 32; 32]);
       (5%nat, EXPR_STMT, 34, 36, None);
       (6%nat, LITERAL, 34, 35, None);
       (7%nat, ADDRESS_LIT, 34, 35, None);
       (8%nat, ATSIGN, 34, 35, Some [64]);
       (8%nat, ERROR, 35, 35, None);
       (6%nat, SEMICOLON, 35, 36, Some [59]);
       (5%nat, WHITESPACE, 36, 45, Some [10; 32; 32; 32; 32; 32; 32; 32; 32]);
       (5%nat, EXPR_STMT, 45, 49, None);
       (6%nat, LITERAL, 45, 48, None);
       (7%nat, ADDRESS_LIT, 45, 48, None);
       (8%nat, ATSIGN, 45, 46, Some [64]);
       (8%nat, ERROR, 46, 48, None);
       (9%nat, INTEGER_NUMBER, 46, 47, Some [48]);
       (9%nat, IDENT, 47, 48, Some [120]);
       (6%nat, SEMICOLON, 48, 49, Some [59]);
       (5%nat, WHITESPACE, 49, 54, Some [10; 32; 32; 32; 32]);
       (5%nat, R_BRACE, 54, 55, Some [125]);
       (3%nat, WHITESPACE, 55, 56, Some [10]);
       (3%nat, R_BRACE, 56, 57, Some [125])],
      [(35, [101; 120; 112; 101; 99; 116; 101; 100; 32; 97; 100; 100; 114; 101; 115; 115; 32; 108; 105; 116; 101; 114; 97; 108]); (46, [101; 120; 112; 101; 99; 116; 101; 100; 32; 97; 100; 100; 114; 101; 115; 115; 32; 108; 105; 116; 101; 114; 97; 108])]).
Proof. vm_compute. reflexivity. Qed.

(** crates/syntax/test_data/parser/ok/0001_empty_script.move *)
Example snapshot_0001_empty_script :
  debug_dump
    [115; 99; 114; 105; 112; 116; 32; 123; 10; 32; 32; 32; 32; 102; 117; 110; 32; 109; 97; 105; 110; 40; 41; 32; 123; 125; 10; 125] =
  Ok ([(0%nat, SOURCE_FILE, 0, 28, None);
       (1%nat, SCRIPT_DEF, 0, 28, None);
       (2%nat, SCRIPT_KW, 0, 6, Some [115; 99; 114; 105; 112; 116]);
       (2%nat, WHITESPACE, 6, 7, Some [32]);
       (2%nat, ITEM_LIST, 7, 28, None);
       (3%nat, L_BRACE, 7, 8, Some [123]);
       (3%nat, WHITESPACE, 8, 13, Some [10; 32; 32; 32; 32]);
       (3%nat, FUNCTION_DEF, 13, 26, None);
       (4%nat, FUN_KW, 13, 16, Some [102; 117; 110]);
       (4%nat, WHITESPACE, 16, 17, Some [32]);
       (4%nat, NAME, 17, 21, None);
       (5%nat, IDENT, 17, 21, Some [109; 97; 105; 110]);
       (4%nat, PARAM_LIST, 21, 23, None);
       (5%nat, L_PAREN, 21, 22, Some [40]);
       (5%nat, R_PAREN, 22, 23, Some [41]);
       (4%nat, WHITESPACE, 23, 24, Some [32]);
       (4%nat, BLOCK_EXPR, 24, 26, None);
       (5%nat, L_BRACE, 24, 25, Some [123]);
       (5%nat, R_BRACE, 25, 26, Some [125]);
       (3%nat, WHITESPACE, 26, 27, Some [10]);
       (3%nat, R_BRACE, 27, 28, Some [125])],
      []).
Proof. vm_compute. reflexivity. Qed.

(** crates/syntax/test_data/parser/ok/0002_binary_expression.move *)
Example snapshot_0002_binary_expression :
  debug_dump
    [115; 99; 114; 105; 112; 116; 32; 123; 10; 32; 32; 32; 32; 102; 117; 110; 32; 109; 97; 105; 110; 40; 41; 32; 123; 10; 32; 32; 32; 32; 32; 32; 32; 32; 49; 48; 48; 32; 42; 32; 40; 49; 32; 43; 32; 49; 32; 43; 32; 49; 41; 32; 42; 32; 40; 49; 48; 48; 32; 45; 32; 49; 48; 48; 41; 59; 10; 32; 32; 32; 32; 32; 32; 32; 32; 49; 32; 47; 32; 49; 59; 10; 32; 32; 32; 32; 32; 32; 32; 32; 49; 32; 37; 32; 49; 59; 10; 32; 32; 32; 32; 125; 10; 125] =
  Ok ([(0%nat, SOURCE_FILE, 0, 104, None);
       (1%nat, SCRIPT_DEF, 0, 104, None);
       (2%nat, SCRIPT_KW, 0, 6, Some [115; 99; 114; 105; 112; 116]);
       (2%nat, WHITESPACE, 6, 7, Some [32]);
       (2%nat, ITEM_LIST, 7, 104, None);
       (3%nat, L_BRACE, 7, 8, Some [123]);
       (3%nat, WHITESPACE, 8, 13, Some [10; 32; 32; 32; 32]);
       (3%nat, FUNCTION_DEF, 13, 102, None);
       (4%nat, FUN_KW, 13, 16, Some [102; 117; 110]);
       (4%nat, WHITESPACE, 16, 17, Some [32]);
       (4%nat, NAME, 17, 21, None);
       (5%nat, IDENT, 17, 21, Some [109; 97; 105; 110]);
       (4%nat, PARAM_LIST, 21, 23, None);
       (5%nat, L_PAREN, 21, 22, Some [40]);
       (5%nat, R_PAREN, 22, 23, Some [41]);
       (4%nat, WHITESPACE, 23, 24, Some [32]);
       (4%nat, BLOCK_EXPR, 24, 102, None);
       (5%nat, L_BRACE, 24, 25, Some [123]);
       (5%nat, WHITESPACE, 25, 34, Some [10; 32; 32; 32; 32; 32; 32; 32; 32]);
       (5%nat, EXPR_STMT, 34, 66, None);
       (6%nat, BIN_EXPR, 34, 65, None);
       (7%nat, BIN_EXPR, 34, 51, None);
       (8%nat, LITERAL, 34, 37, None);
       (9%nat, INTEGER_NUMBER, 34, 37, Some [49; 48; 48]);
       (8%nat, WHITESPACE, 37, 38, Some [32]);
       (8%nat, STAR, 38, 39, Some [42]);
       (8%nat, WHITESPACE, 39, 40, Some [32]);
       (8%nat, PAREN_EXPR, 40, 51, None);
       (9%nat, L_PAREN, 40, 41, Some [40]);
       (9%nat, BIN_EXPR, 41, 50, None);
       (10%nat, BIN_EXPR, 41, 46, None);
       (11%nat, LITERAL, 41, 42, None);
       (12%nat, INTEGER_NUMBER, 41, 42, Some [49]);
       (11%nat, WHITESPACE, 42, 43, Some [32]);
       (11%nat, PLUS, 43, 44, Some [43]);
       (11%nat, WHITESPACE, 44, 45, Some [32]);
       (11%nat, LITERAL, 45, 46, None);
       (12%nat, INTEGER_NUMBER, 45, 46, Some [49]);
       (10%nat, WHITESPACE, 46, 47, Some [32]);
       (10%nat, PLUS, 47, 48, Some [43]);
       (10%nat, WHITESPACE, 48, 49, Some [32]);
       (10%nat, LITERAL, 49, 50, None);
       (11%nat, INTEGER_NUMBER, 49, 50, Some [49]);
       (9%nat, R_PAREN, 50, 51, Some [41]);
       (7%nat, WHITESPACE, 51, 52, Some [32]);
       (7%nat, STAR, 52, 53, Some [42]);
       (7%nat, WHITESPACE, 53, 54, Some [32]);
       (7%nat, PAREN_EXPR, 54, 65, None);
       (8%nat, L_PAREN, 54, 55, Some [40]);
       (8%nat, BIN_EXPR, 55, 64, None);
       (9%nat, LITERAL, 55, 58, None);
       (10%nat, INTEGER_NUMBER, 55, 58, Some [49; 48; 48]);
       (9%nat, WHITESPACE, 58, 59, Some [32]);
       (9%nat, MINUS, 59, 60, Some [45]);
       (9%nat, WHITESPACE, 60, 61, Some [32]);
       (9%nat, LITERAL, 61, 64, None);
       (10%nat, INTEGER_NUMBER, 61, 64, Some [49; 48; 48]);
       (8%nat, R_PAREN, 64, 65, Some [41]);
       (6%nat, SEMICOLON, 65, 66, Some [59]);
       (5%nat, WHITESPACE, 66, 75, Some [10; 32; 32; 32; 32; 32; 32; 32; 32]);
       (5%nat, EXPR_STMT, 75, 81, None);
       (6%nat, BIN_EXPR, 75, 80, None);
       (7%nat, LITERAL, 75, 76, None);
       (8%nat, INTEGER_NUMBER, 75, 76, Some [49]);
       (7%nat, WHITESPACE, 76, 77, Some [32]);
       (7%nat, SLASH, 77, 78, Some [47]);
       (7%nat, WHITESPACE, 78, 79, Some [32]);
       (7%nat, LITERAL, 79, 80, None);
       (8%nat, INTEGER_NUMBER, 79, 80, Some [49]);
       (6%nat, SEMICOLON, 80, 81, Some [59]);
       (5%nat, WHITESPACE, 81, 90, Some [10; 32; 32; 32; 32; 32; 32; 32; 32]);
       (5%nat, EXPR_STMT, 90, 96, None);
       (6%nat, BIN_EXPR, 90, 95, None);
       (7%nat, LITERAL, 90, 91, None);
       (8%nat, INTEGER_NUMBER, 90, 91, Some [49]);
       (7%nat, WHITESPACE, 91, 92, Some [32]);
       (7%nat, MOD, 92, 93, Some [37]);
       (7%nat, WHITESPACE, 93, 94, Some [32]);
       (7%nat, LITERAL, 94, 95, None);
       (8%nat, INTEGER_NUMBER, 94, 95, Some [49]);
       (6%nat, SEMICOLON, 95, 96, Some [59]);
       (5%nat, WHITESPACE, 96, 101, Some [10; 32; 32; 32; 32]);
       (5%nat, R_BRACE, 101, 102, Some [125]);
       (3%nat, WHITESPACE, 102, 103, Some [10]);
       (3%nat, R_BRACE, 103, 104, Some [125])],
      []).
Proof. vm_compute. reflexivity. Qed.

(** crates/syntax/test_data/parser/ok/0003_let_statement.move *)
Example snapshot_0003_let_statement :
  debug_dump
    [115; 99; 114; 105; 112; 116; 32; 123; 10; 32; 32; 32; 32; 102; 117; 110; 32; 109; 97; 105; 110; 40; 41; 32; 123; 10; 32; 32; 32; 32; 32; 32; 32; 32; 108; 101; 116; 32; 97; 59; 10; 32; 32; 32; 32; 32; 32; 32; 32; 108; 101; 116; 32; 97; 58; 32; 117; 56; 59; 10; 32; 32; 32; 32; 32; 32; 32; 32; 108; 101; 116; 32; 97; 58; 32; 117; 56; 32; 61; 32; 49; 59; 10; 32; 32; 32; 32; 32; 32; 32; 32; 108; 101; 116; 32; 97; 58; 32; 117; 56; 32; 61; 32; 49; 32; 43; 32; 49; 59; 10; 32; 32; 32; 32; 125; 10; 125] =
  Ok ([(0%nat, SOURCE_FILE, 0, 117, None);
       (1%nat, SCRIPT_DEF, 0, 117, None);
       (2%nat, SCRIPT_KW, 0, 6, Some [115; 99; 114; 105; 112; 116]);
       (2%nat, WHITESPACE, 6, 7, Some [32]);
       (2%nat, ITEM_LIST, 7, 117, None);
       (3%nat, L_BRACE, 7, 8, Some [123]);
       (3%nat, WHITESPACE, 8, 13, Some [10; 32; 32; 32; 32]);
       (3%nat, FUNCTION_DEF, 13, 115, None);
       (4%nat, FUN_KW, 13, 16, Some [102; 117; 110]);
       (4%nat, WHITESPACE, 16, 17, Some [32]);
       (4%nat, NAME, 17, 21, None);
       (5%nat, IDENT, 17, 21, Some [109; 97; 105; 110]);
       (4%nat, PARAM_LIST, 21, 23, None);
       (5%nat, L_PAREN, 21, 22, Some [40]);
       (5%nat, R_PAREN, 22, 23, Some [41]);
       (4%nat, WHITESPACE, 23, 24, Some [32]);
       (4%nat, BLOCK_EXPR, 24, 115, None);
       (5%nat, L_BRACE, 24, 25, Some [123]);
       (5%nat, WHITESPACE, 25, 34, Some [10; 32; 32; 32; 32; 32; 32; 32; 32]);
       (5%nat, LET_STMT, 34, 40, None);
       (6%nat, LET_KW, 34, 37, Some [108; 101; 116]);
       (6%nat, WHITESPACE, 37, 38, Some [32]);
       (6%nat, IDENT_PAT, 38, 39, None);
       (7%nat, NAME, 38, 39, None);
       (8%nat, IDENT, 38, 39, Some [97]);
       (6%nat, SEMICOLON, 39, 40, Some [59]);
       (5%nat, WHITESPACE, 40, 49, Some [10; 32; 32; 32; 32; 32; 32; 32; 32]);
       (5%nat, LET_STMT, 49, 59, None);
       (6%nat, LET_KW, 49, 52, Some [108; 101; 116]);
       (6%nat, WHITESPACE, 52, 53, Some [32]);
       (6%nat, IDENT_PAT, 53, 54, None);
       (7%nat, NAME, 53, 54, None);
       (8%nat, IDENT, 53, 54, Some [97]);
       (6%nat, COLON, 54, 55, Some [58]);
       (6%nat, WHITESPACE, 55, 56, Some [32]);
       (6%nat, PATH_TYPE, 56, 58, None);
       (7%nat, PATH, 56, 58, None);
       (8%nat, PATH_SEGMENT, 56, 58, None);
       (9%nat, NAME_REF, 56, 58, None);
       (10%nat, IDENT, 56, 58, Some [117; 56]);
       (6%nat, SEMICOLON, 58, 59, Some [59]);
       (5%nat, WHITESPACE, 59, 68, Some [10; 32; 32; 32; 32; 32; 32; 32; 32]);
       (5%nat, LET_STMT, 68, 82, None);
       (6%nat, LET_KW, 68, 71, Some [108; 101; 116]);
       (6%nat, WHITESPACE, 71, 72, Some [32]);
       (6%nat, IDENT_PAT, 72, 73, None);
       (7%nat, NAME, 72, 73, None);
       (8%nat, IDENT, 72, 73, Some [97]);
       (6%nat, COLON, 73, 74, Some [58]);
       (6%nat, WHITESPACE, 74, 75, Some [32]);
       (6%nat, PATH_TYPE, 75, 77, None);
       (7%nat, PATH, 75, 77, None);
       (8%nat, PATH_SEGMENT, 75, 77, None);
       (9%nat, NAME_REF, 75, 77, None);
       (10%nat, IDENT, 75, 77, Some [117; 56]);
       (6%nat, WHITESPACE, 77, 78, Some [32]);
       (6%nat, EQ, 78, 79, Some [61]);
       (6%nat, WHITESPACE, 79, 80, Some [32]);
       (6%nat, LITERAL, 80, 81, None);
       (7%nat, INTEGER_NUMBER, 80, 81, Some [49]);
       (6%nat, SEMICOLON, 81, 82, Some [59]);
       (5%nat, WHITESPACE, 82, 91, Some [10; 32; 32; 32; 32; 32; 32; 32; 32]);
       (5%nat, LET_STMT, 91, 109, None);
       (6%nat, LET_KW, 91, 94, Some [108; 101; 116]);
       (6%nat, WHITESPACE, 94, 95, Some [32]);
       (6%nat, IDENT_PAT, 95, 96, None);
       (7%nat, NAME, 95, 96, None);
       (8%nat, IDENT, 95, 96, Some [97]);
       (6%nat, COLON, 96, 97, Some [58]);
       (6%nat, WHITESPACE, 97, 98, Some [32]);
       (6%nat, PATH_TYPE, 98, 100, None);
       (7%nat, PATH, 98, 100, None);
       (8%nat, PATH_SEGMENT, 98, 100, None);
       (9%nat, NAME_REF, 98, 100, None);
       (10%nat, IDENT, 98, 100, Some [117; 56]);
       (6%nat, WHITESPACE, 100, 101, Some [32]);
       (6%nat, EQ, 101, 102, Some [61]);
       (6%nat, WHITESPACE, 102, 103, Some [32]);
       (6%nat, BIN_EXPR, 103, 108, None);
       (7%nat, LITERAL, 103, 104, None);
       (8%nat, INTEGER_NUMBER, 103, 104, Some [49]);
       (7%nat, WHITESPACE, 104, 105, Some [32]);
       (7%nat, PLUS, 105, 106, Some [43]);
       (7%nat, WHITESPACE, 106, 107, Some [32]);
       (7%nat, LITERAL, 107, 108, None);
       (8%nat, INTEGER_NUMBER, 107, 108, Some [49]);
       (6%nat, SEMICOLON, 108, 109, Some [59]);
       (5%nat, WHITESPACE, 109, 114, Some [10; 32; 32; 32; 32]);
       (5%nat, R_BRACE, 114, 115, Some [125]);
       (3%nat, WHITESPACE, 115, 116, Some [10]);
       (3%nat, R_BRACE, 116, 117, Some [125])],
      []).
Proof. vm_compute. reflexivity. Qed.

(** crates/syntax/test_data/parser/ok/0004_assignments.move *)
Example snapshot_0004_assignments :
  debug_dump
    [115; 99; 114; 105; 112; 116; 32; 123; 10; 32; 32; 32; 32; 102; 117; 110; 32; 109; 97; 105; 110; 40; 41; 32; 123; 10; 32; 32; 32; 32; 32; 32; 32; 32; 97; 32; 61; 32; 49; 59; 10; 32; 32; 32; 32; 125; 10; 125] =
  Ok ([(0%nat, SOURCE_FILE, 0, 48, None);
       (1%nat, SCRIPT_DEF, 0, 48, None);
       (2%nat, SCRIPT_KW, 0, 6, Some [115; 99; 114; 105; 112; 116]);
       (2%nat, WHITESPACE, 6, 7, Some [32]);
       (2%nat, ITEM_LIST, 7, 48, None);
       (3%nat, L_BRACE, 7, 8, Some [123]);
       (3%nat, WHITESPACE, 8, 13, Some [10; 32; 32; 32; 32]);
       (3%nat, FUNCTION_DEF, 13, 46, None);
       (4%nat, FUN_KW, 13, 16, Some [102; 117; 110]);
       (4%nat, WHITESPACE, 16, 17, Some [32]);
       (4%nat, NAME, 17, 21, None);
       (5%nat, IDENT, 17, 21, Some [109; 97; 105; 110]);
       (4%nat, PARAM_LIST, 21, 23, None);
       (5%nat, L_PAREN, 21, 22, Some [40]);
       (5%nat, R_PAREN, 22, 23, Some [41]);
       (4%nat, WHITESPACE, 23, 24, Some [32]);
       (4%nat, BLOCK_EXPR, 24, 46, None);
       (5%nat, L_BRACE, 24, 25, Some [123]);
       (5%nat, WHITESPACE, 25, 34, Some [10; 32; 32; 32; 32; 32; 32; 32; 32]);
       (5%nat, EXPR_STMT, 34, 40, None);
       (6%nat, BIN_EXPR, 34, 39, None);
       (7%nat, PATH_EXPR, 34, 35, None);
       (8%nat, PATH, 34, 35, None);
       (9%nat, PATH_SEGMENT, 34, 35, None);
       (10%nat, NAME_REF, 34, 35, None);
       (11%nat, IDENT, 34, 35, Some [97]);
       (7%nat, WHITESPACE, 35, 36, Some [32]);
       (7%nat, EQ, 36, 37, Some [61]);
       (7%nat, WHITESPACE, 37, 38, Some [32]);
       (7%nat, LITERAL, 38, 39, None);
       (8%nat, INTEGER_NUMBER, 38, 39, Some [49]);
       (6%nat, SEMICOLON, 39, 40, Some [59]);
       (5%nat, WHITESPACE, 40, 45, Some [10; 32; 32; 32; 32]);
       (5%nat, R_BRACE, 45, 46, Some [125]);
       (3%nat, WHITESPACE, 46, 47, Some [10]);
       (3%nat, R_BRACE, 47, 48, Some [125])],
      []).
Proof. vm_compute. reflexivity. Qed.

(** crates/syntax/test_data/parser/ok/0005_literals.move *)
Example snapshot_0005_literals :
  debug_dump
    [115; 99; 114; 105; 112; 116; 32; 123; 10; 32; 32; 32; 32; 102; 117; 110; 32; 109; 97; 105; 110; 40; 41; 32; 123; 10; 32; 32; 32; 32; 32; 32; 32; 32; 49; 59; 10; 32; 32; 32; 32; 32; 32; 32; 32; 64; 48; 120; 49; 59; 10; 32; 32; 32; 32; 32; 32; 32; 32; 64; 83; 116; 100; 65; 100; 100; 114; 59; 10; 32; 32; 32; 32; 32; 32; 32; 32; 116; 114; 117; 101; 59; 10; 32; 32; 32; 32; 32; 32; 32; 32; 102; 97; 108; 115; 101; 59; 10; 32; 32; 32; 32; 32; 32; 32; 32; 120; 34; 49; 49; 49; 50; 50; 34; 59; 10; 32; 32; 32; 32; 32; 32; 32; 32; 98; 34; 49; 49; 50; 50; 34; 59; 10; 32; 32; 32; 32; 125; 10; 125] =
  Ok ([(0%nat, SOURCE_FILE, 0, 140, None);
       (1%nat, SCRIPT_DEF, 0, 140, None);
       (2%nat, SCRIPT_KW, 0, 6, Some [115; 99; 114; 105; 112; 116]);
       (2%nat, WHITESPACE, 6, 7, Some [32]);
       (2%nat, ITEM_LIST, 7, 140, None);
       (3%nat, L_BRACE, 7, 8, Some [123]);
       (3%nat, WHITESPACE, 8, 13, Some [10; 32; 32; 32; 32]);
       (3%nat, FUNCTION_DEF, 13, 138, None);
       (4%nat, FUN_KW, 13, 16, Some [102; 117; 110]);
       (4%nat, WHITESPACE, 16, 17, Some [32]);
       (4%nat, NAME, 17, 21, None);
       (5%nat, IDENT, 17, 21, Some [109; 97; 105; 110]);
       (4%nat, PARAM_LIST, 21, 23, None);
       (5%nat, L_PAREN, 21, 22, Some [40]);
       (5%nat, R_PAREN, 22, 23, Some [41]);
       (4%nat, WHITESPACE, 23, 24, Some [32]);
       (4%nat, BLOCK_EXPR, 24, 138, None);
       (5%nat, L_BRACE, 24, 25, Some [123]);
       (5%nat, WHITESPACE, 25, 34, Some [10; 32; 32; 32; 32; 32; 32; 32; 32]);
       (5%nat, EXPR_STMT, 34, 36, None);
       (6%nat, LITERAL, 34, 35, None);
       (7%nat, INTEGER_NUMBER, 34, 35, Some [49]);
       (6%nat, SEMICOLON, 35, 36, Some [59]);
       (5%nat, WHITESPACE, 36, 45, Some [10; 32; 32; 32; 32; 32; 32; 32; 32]);
       (5%nat, EXPR_STMT, 45, 50, None);
       (6%nat, LITERAL, 45, 49, None);
       (7%nat, ADDRESS_LIT, 45, 49, None);
       (8%nat, ATSIGN, 45, 46, Some [64]);
       (8%nat, DIEM_ADDRESS, 46, 49, Some [48; 120; 49]);
       (6%nat, SEMICOLON, 49, 50, Some [59]);
       (5%nat, WHITESPACE, 50, 59, Some [10; 32; 32; 32; 32; 32; 32; 32; 32]);
       (5%nat, EXPR_STMT, 59, 68, None);
       (6%nat, LITERAL, 59, 67, None);
       (7%nat, ADDRESS_LIT, 59, 67, None);
       (8%nat, ATSIGN, 59, 60, Some [64]);
       (8%nat, IDENT, 60, 67, Some [83; 116; 100; 65; 100; 100; 114]);
       (6%nat, SEMICOLON, 67, 68, Some [59]);
       (5%nat, WHITESPACE, 68, 77, Some [10; 32; 32; 32; 32; 32; 32; 32; 32]);
       (5%nat, EXPR_STMT, 77, 82, None);
       (6%nat, LITERAL, 77, 81, None);
       (7%nat, TRUE_KW, 77, 81, Some [116; 114; 117; 101]);
       (6%nat, SEMICOLON, 81, 82, Some [59]);
       (5%nat, WHITESPACE, 82, 91, Some [10; 32; 32; 32; 32; 32; 32; 32; 32]);
       (5%nat, EXPR_STMT, 91, 97, None);
       (6%nat, LITERAL, 91, 96, None);
       (7%nat, FALSE_KW, 91, 96, Some [102; 97; 108; 115; 101]);
       (6%nat, SEMICOLON, 96, 97, Some [59]);
       (5%nat, WHITESPACE, 97, 106, Some [10; 32; 32; 32; 32; 32; 32; 32; 32]);
       (5%nat, EXPR_STMT, 106, 115, None);
       (6%nat, LITERAL, 106, 114, None);
       (7%nat, BYTE_STRING, 106, 114, Some [120; 34; 49; 49; 49; 50; 50; 34]);
       (6%nat, SEMICOLON, 114, 115, Some [59]);
       (5%nat, WHITESPACE, 115, 124, Some [10; 32; 32; 32; 32; 32; 32; 32; 32]);
       (5%nat, EXPR_STMT, 124, 132, None);
       (6%nat, LITERAL, 124, 131, None);
       (7%nat, BYTE_STRING, 124, 131, Some [98; 34; 49; 49; 50; 50; 34]);
       (6%nat, SEMICOLON, 131, 132, Some [59]);
       (5%nat, WHITESPACE, 132, 137, Some [10; 32; 32; 32; 32]);
       (5%nat, R_BRACE, 137, 138, Some [125]);
       (3%nat, WHITESPACE, 138, 139, Some [10]);
       (3%nat, R_BRACE, 139, 140, Some [125])],
      []).
Proof. vm_compute. reflexivity. Qed.

(** crates/syntax/test_data/parser/ok/address_definitions.move *)
Example snapshot_address_definitions :
  debug_dump
    [97; 100; 100; 114; 101; 115; 115; 32; 48; 120; 49; 32; 123; 32; 109; 111; 100; 117; 108; 101; 32; 77; 32; 123; 125; 125] =
  Ok ([(0%nat, SOURCE_FILE, 0, 26, None);
       (1%nat, ADDRESS_DEF, 0, 26, None);
       (2%nat, ADDRESS_KW, 0, 7, Some [97; 100; 100; 114; 101; 115; 115]);
       (2%nat, WHITESPACE, 7, 8, Some [32]);
       (2%nat, ADDRESS_IDENT, 8, 11, None);
       (3%nat, DIEM_ADDRESS, 8, 11, Some [48; 120; 49]);
       (2%nat, WHITESPACE, 11, 12, Some [32]);
       (2%nat, ADDRESS_ITEM_LIST, 12, 26, None);
       (3%nat, L_BRACE, 12, 13, Some [123]);
       (3%nat, WHITESPACE, 13, 14, Some [32]);
       (3%nat, MODULE_DEF, 14, 25, None);
       (4%nat, MODULE_KW, 14, 20, Some [109; 111; 100; 117; 108; 101]);
       (4%nat, WHITESPACE, 20, 21, Some [32]);
       (4%nat, NAME, 21, 22, None);
       (5%nat, IDENT, 21, 22, Some [77]);
       (4%nat, WHITESPACE, 22, 23, Some [32]);
       (4%nat, ITEM_LIST, 23, 25, None);
       (5%nat, L_BRACE, 23, 24, Some [123]);
       (5%nat, R_BRACE, 24, 25, Some [125]);
       (3%nat, R_BRACE, 25, 26, Some [125])],
      []).
Proof. vm_compute. reflexivity. Qed.

(** crates/syntax/test_data/parser/ok/line_comments.move *)
Example snapshot_line_comments :
  debug_dump
    [47; 47; 104; 101; 108; 108; 111; 10; 32; 115; 99; 114; 105; 112; 116; 32; 123; 10; 32; 32; 102; 117; 110; 32; 109; 97; 105; 110; 40; 41; 32; 123; 125; 10; 32; 125; 10; 10; 47; 47; 119; 111; 114; 108; 100; 10; 10] =
  Ok ([(0%nat, SOURCE_FILE, 0, 47, None);
       (1%nat, COMMENT, 0, 8, Some [47; 47; 104; 101; 108; 108; 111; 10]);
       (1%nat, WHITESPACE, 8, 9, Some [32]);
       (1%nat, SCRIPT_DEF, 9, 36, None);
       (2%nat, SCRIPT_KW, 9, 15, Some [115; 99; 114; 105; 112; 116]);
       (2%nat, WHITESPACE, 15, 16, Some [32]);
       (2%nat, ITEM_LIST, 16, 36, None);
       (3%nat, L_BRACE, 16, 17, Some [123]);
       (3%nat, WHITESPACE, 17, 20, Some [10; 32; 32]);
       (3%nat, FUNCTION_DEF, 20, 33, None);
       (4%nat, FUN_KW, 20, 23, Some [102; 117; 110]);
       (4%nat, WHITESPACE, 23, 24, Some [32]);
       (4%nat, NAME, 24, 28, None);
       (5%nat, IDENT, 24, 28, Some [109; 97; 105; 110]);
       (4%nat, PARAM_LIST, 28, 30, None);
       (5%nat, L_PAREN, 28, 29, Some [40]);
       (5%nat, R_PAREN, 29, 30, Some [41]);
       (4%nat, WHITESPACE, 30, 31, Some [32]);
       (4%nat, BLOCK_EXPR, 31, 33, None);
       (5%nat, L_BRACE, 31, 32, Some [123]);
       (5%nat, R_BRACE, 32, 33, Some [125]);
       (3%nat, WHITESPACE, 33, 35, Some [10; 32]);
       (3%nat, R_BRACE, 35, 36, Some [125]);
       (1%nat, WHITESPACE, 36, 38, Some [10; 10]);
       (1%nat, COMMENT, 38, 46, Some [47; 47; 119; 111; 114; 108; 100; 10]);
       (1%nat, WHITESPACE, 46, 47, Some [10])],
      []).
Proof. vm_compute. reflexivity. Qed.

(** crates/syntax/test_data/parser/ok/module_definitions.move *)
Example snapshot_module_definitions :
  debug_dump
    [109; 111; 100; 117; 108; 101; 32; 77; 49; 32; 123; 125; 10; 109; 111; 100; 117; 108; 101; 32; 48; 120; 49; 58; 58; 77; 50; 32; 123; 125; 10; 109; 111; 100; 117; 108; 101; 32; 83; 116; 100; 58; 58; 77; 51; 32; 123; 125; 10] =
  Ok ([(0%nat, SOURCE_FILE, 0, 49, None);
       (1%nat, MODULE_DEF, 0, 12, None);
       (2%nat, MODULE_KW, 0, 6, Some [109; 111; 100; 117; 108; 101]);
       (2%nat, WHITESPACE, 6, 7, Some [32]);
       (2%nat, NAME, 7, 9, None);
       (3%nat, IDENT, 7, 9, Some [77; 49]);
       (2%nat, WHITESPACE, 9, 10, Some [32]);
       (2%nat, ITEM_LIST, 10, 12, None);
       (3%nat, L_BRACE, 10, 11, Some [123]);
       (3%nat, R_BRACE, 11, 12, Some [125]);
       (1%nat, WHITESPACE, 12, 13, Some [10]);
       (1%nat, MODULE_DEF, 13, 30, None);
       (2%nat, MODULE_KW, 13, 19, Some [109; 111; 100; 117; 108; 101]);
       (2%nat, WHITESPACE, 19, 20, Some [32]);
       (2%nat, ADDRESS_IDENT, 20, 23, None);
       (3%nat, DIEM_ADDRESS, 20, 23, Some [48; 120; 49]);
       (2%nat, COLON_COLON, 23, 25, Some [58; 58]);
       (2%nat, NAME, 25, 27, None);
       (3%nat, IDENT, 25, 27, Some [77; 50]);
       (2%nat, WHITESPACE, 27, 28, Some [32]);
       (2%nat, ITEM_LIST, 28, 30, None);
       (3%nat, L_BRACE, 28, 29, Some [123]);
       (3%nat, R_BRACE, 29, 30, Some [125]);
       (1%nat, WHITESPACE, 30, 31, Some [10]);
       (1%nat, MODULE_DEF, 31, 48, None);
       (2%nat, MODULE_KW, 31, 37, Some [109; 111; 100; 117; 108; 101]);
       (2%nat, WHITESPACE, 37, 38, Some [32]);
       (2%nat, ADDRESS_IDENT, 38, 41, None);
       (3%nat, IDENT, 38, 41, Some [83; 116; 100]);
       (2%nat, COLON_COLON, 41, 43, Some [58; 58]);
       (2%nat, NAME, 43, 45, None);
       (3%nat, IDENT, 43, 45, Some [77; 51]);
       (2%nat, WHITESPACE, 45, 46, Some [32]);
       (2%nat, ITEM_LIST, 46, 48, None);
       (3%nat, L_BRACE, 46, 47, Some [123]);
       (3%nat, R_BRACE, 47, 48, Some [125]);
       (1%nat, WHITESPACE, 48, 49, Some [10])],
      []).
Proof. vm_compute. reflexivity. Qed.
