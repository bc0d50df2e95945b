(** Model of crates/parser/src/syntax_kind.rs and syntax_kind/generated.rs.
    The constructors are those of the Rust enum, in order. *)
From Coq Require Import String.
From Verif Require Import Base.
Local Open Scope N_scope.

(** syntax_kind/generated.rs:5-126 [SyntaxKind], #[repr(u16)] *)
Inductive kind :=
 | TOMBSTONE | EOF | COLON | COLON_COLON | SEMICOLON | COMMA | L_PAREN | R_PAREN | L_BRACE
 | R_BRACE | L_BRACK | R_BRACK | PLUS | MINUS | STAR | SLASH | MOD | NUMSIGN | ATSIGN | DOT
 | DOTDOT | AMP | AMP_AMP | AMP_MUT | CARET | PIPE | PIPE_PIPE | BANG | BANG_EQ | EQ | EQ_EQ
 | EQ_EQ_GT | GT | GT_GT | GT_EQ | LT | LT_LT | LT_EQ | LT_EQ_EQ_GT | WILDCARD | STRUCT_KW
 | SCRIPT_KW | MODULE_KW | CONST_KW | USE_KW | AS_KW | LET_KW | MUT_KW | RETURN_KW | FUN_KW
 | TRUE_KW | FALSE_KW | MOVE_KW | WHILE_KW | IF_KW | ELSE_KW | BREAK_KW | CONTINUE_KW
 | ADDRESS_KW | INTEGER_NUMBER | BYTE_STRING | HEX_STRING | ERROR | IDENT | WHITESPACE
 | COMMENT | DIEM_ADDRESS | SOURCE_FILE | ADDRESS_DEF | ADDRESS_ITEM_LIST | MODULE_DEF
 | ADDRESS_IDENT | SCRIPT_DEF | FUNCTION_DEF | ITEM_LIST | NAME_REF | STRUCT
 | RECORD_FIELD_LIST | RECORD_FIELD | GENERIC_PARAM_LIST | TYPE_PARAM | TYPE_BOUND_LIST
 | TYPE_BOUND | PARAM_LIST | PARAM | RET_TYPE | EXPR | BLOCK_EXPR | DOT_EXPR | CALL_EXPR
 | ARG_LIST | RECORD_EXPR | RECORD_EXPR_FIELD_LIST | RECORD_EXPR_FIELD | LITERAL | PATH
 | PATH_SEGMENT | NAME | BIN_EXPR | PREFIX_EXPR | PATH_EXPR | PAREN_EXPR | EXPR_STMT | LET_STMT
 | REF_TYPE | PATH_TYPE | PAREN_PAT | TUPLE_PAT | RECORD_PAT | RECORD_PAT_FIELD_LIST
 | RECORD_PAT_FIELD | PATH_PAT | WILDCARD_PAT | REST_PAT | IDENT_PAT | ADDRESS_LIT | K_LAST.

(** discriminants; syntax_kind.rs:13-17 [From<SyntaxKind> for u16] *)
Definition kind_to_n (k : kind) : N :=
  match k with
  | TOMBSTONE => 0 | EOF => 1 | COLON => 2 | COLON_COLON => 3 | SEMICOLON => 4 | COMMA => 5
  | L_PAREN => 6 | R_PAREN => 7 | L_BRACE => 8 | R_BRACE => 9 | L_BRACK => 10 | R_BRACK => 11
  | PLUS => 12 | MINUS => 13 | STAR => 14 | SLASH => 15 | MOD => 16 | NUMSIGN => 17
  | ATSIGN => 18 | DOT => 19 | DOTDOT => 20 | AMP => 21 | AMP_AMP => 22 | AMP_MUT => 23
  | CARET => 24 | PIPE => 25 | PIPE_PIPE => 26 | BANG => 27 | BANG_EQ => 28 | EQ => 29
  | EQ_EQ => 30 | EQ_EQ_GT => 31 | GT => 32 | GT_GT => 33 | GT_EQ => 34 | LT => 35
  | LT_LT => 36 | LT_EQ => 37 | LT_EQ_EQ_GT => 38 | WILDCARD => 39 | STRUCT_KW => 40
  | SCRIPT_KW => 41 | MODULE_KW => 42 | CONST_KW => 43 | USE_KW => 44 | AS_KW => 45
  | LET_KW => 46 | MUT_KW => 47 | RETURN_KW => 48 | FUN_KW => 49 | TRUE_KW => 50
  | FALSE_KW => 51 | MOVE_KW => 52 | WHILE_KW => 53 | IF_KW => 54 | ELSE_KW => 55
  | BREAK_KW => 56 | CONTINUE_KW => 57 | ADDRESS_KW => 58 | INTEGER_NUMBER => 59
  | BYTE_STRING => 60 | HEX_STRING => 61 | ERROR => 62 | IDENT => 63 | WHITESPACE => 64
  | COMMENT => 65 | DIEM_ADDRESS => 66 | SOURCE_FILE => 67 | ADDRESS_DEF => 68
  | ADDRESS_ITEM_LIST => 69 | MODULE_DEF => 70 | ADDRESS_IDENT => 71 | SCRIPT_DEF => 72
  | FUNCTION_DEF => 73 | ITEM_LIST => 74 | NAME_REF => 75 | STRUCT => 76
  | RECORD_FIELD_LIST => 77 | RECORD_FIELD => 78 | GENERIC_PARAM_LIST => 79 | TYPE_PARAM => 80
  | TYPE_BOUND_LIST => 81 | TYPE_BOUND => 82 | PARAM_LIST => 83 | PARAM => 84 | RET_TYPE => 85
  | EXPR => 86 | BLOCK_EXPR => 87 | DOT_EXPR => 88 | CALL_EXPR => 89 | ARG_LIST => 90
  | RECORD_EXPR => 91 | RECORD_EXPR_FIELD_LIST => 92 | RECORD_EXPR_FIELD => 93 | LITERAL => 94
  | PATH => 95 | PATH_SEGMENT => 96 | NAME => 97 | BIN_EXPR => 98 | PREFIX_EXPR => 99
  | PATH_EXPR => 100 | PAREN_EXPR => 101 | EXPR_STMT => 102 | LET_STMT => 103 | REF_TYPE => 104
  | PATH_TYPE => 105 | PAREN_PAT => 106 | TUPLE_PAT => 107 | RECORD_PAT => 108
  | RECORD_PAT_FIELD_LIST => 109 | RECORD_PAT_FIELD => 110 | PATH_PAT => 111
  | WILDCARD_PAT => 112 | REST_PAT => 113 | IDENT_PAT => 114 | ADDRESS_LIT => 115
  | K_LAST => 116
  end.

(** All kinds in discriminant order. *)
Definition all_kinds : list kind :=
  [TOMBSTONE; EOF; COLON; COLON_COLON; SEMICOLON; COMMA; L_PAREN; R_PAREN; L_BRACE; R_BRACE;
   L_BRACK; R_BRACK; PLUS; MINUS; STAR; SLASH; MOD; NUMSIGN; ATSIGN; DOT; DOTDOT; AMP;
   AMP_AMP; AMP_MUT; CARET; PIPE; PIPE_PIPE; BANG; BANG_EQ; EQ; EQ_EQ; EQ_EQ_GT; GT; GT_GT;
   GT_EQ; LT; LT_LT; LT_EQ; LT_EQ_EQ_GT; WILDCARD; STRUCT_KW; SCRIPT_KW; MODULE_KW; CONST_KW;
   USE_KW; AS_KW; LET_KW; MUT_KW; RETURN_KW; FUN_KW; TRUE_KW; FALSE_KW; MOVE_KW; WHILE_KW;
   IF_KW; ELSE_KW; BREAK_KW; CONTINUE_KW; ADDRESS_KW; INTEGER_NUMBER; BYTE_STRING; HEX_STRING;
   ERROR; IDENT; WHITESPACE; COMMENT; DIEM_ADDRESS; SOURCE_FILE; ADDRESS_DEF;
   ADDRESS_ITEM_LIST; MODULE_DEF; ADDRESS_IDENT; SCRIPT_DEF; FUNCTION_DEF; ITEM_LIST;
   NAME_REF; STRUCT; RECORD_FIELD_LIST; RECORD_FIELD; GENERIC_PARAM_LIST; TYPE_PARAM;
   TYPE_BOUND_LIST; TYPE_BOUND; PARAM_LIST; PARAM; RET_TYPE; EXPR; BLOCK_EXPR; DOT_EXPR;
   CALL_EXPR; ARG_LIST; RECORD_EXPR; RECORD_EXPR_FIELD_LIST; RECORD_EXPR_FIELD; LITERAL; PATH;
   PATH_SEGMENT; NAME; BIN_EXPR; PREFIX_EXPR; PATH_EXPR; PAREN_EXPR; EXPR_STMT; LET_STMT;
   REF_TYPE; PATH_TYPE; PAREN_PAT; TUPLE_PAT; RECORD_PAT; RECORD_PAT_FIELD_LIST;
   RECORD_PAT_FIELD; PATH_PAT; WILDCARD_PAT; REST_PAT; IDENT_PAT; ADDRESS_LIT; K_LAST].

(** syntax_kind.rs:6-11 [From<u16>]: assert, then transmute *)
Definition kind_from_n (d : N) : res kind :=
  if d <=? kind_to_n K_LAST then index (nth_error all_kinds (N.to_nat d)) else Panic PAssert.

(** derived PartialEq: discriminants are compared *)
Definition kind_eqb (a b : kind) : bool := kind_to_n a =? kind_to_n b.

(** syntax_kind.rs:20-25 [is_trivia] *)
Definition is_trivia (k : kind) : bool := kind_eqb k WHITESPACE || kind_eqb k COMMENT.

Definition kind_in (k : kind) (l : list kind) : bool := existsb (kind_eqb k) l.

(** generated.rs:129-152 [is_keyword] *)
Definition keyword_kinds : list kind :=
  [
   STRUCT_KW; SCRIPT_KW; MODULE_KW; CONST_KW; USE_KW; AS_KW; LET_KW; MUT_KW; RETURN_KW;
   FUN_KW; TRUE_KW; FALSE_KW; MOVE_KW; WHILE_KW; IF_KW; ELSE_KW; BREAK_KW; CONTINUE_KW;
   ADDRESS_KW].
Definition is_keyword (k : kind) : bool := kind_in k keyword_kinds.
(** generated.rs:153-195 [is_punct] *)
Definition punct_kinds : list kind :=
  [
   COLON; COLON_COLON; SEMICOLON; COMMA; L_PAREN; R_PAREN; L_BRACE; R_BRACE; L_BRACK; R_BRACK;
   PLUS; MINUS; STAR; SLASH; MOD; NUMSIGN; ATSIGN; DOT; DOTDOT; AMP; AMP_AMP; AMP_MUT; CARET;
   PIPE; PIPE_PIPE; BANG; BANG_EQ; EQ; EQ_EQ; EQ_EQ_GT; GT; GT_GT; GT_EQ; LT; LT_LT; LT_EQ;
   LT_EQ_EQ_GT; WILDCARD].
Definition is_punct (k : kind) : bool := kind_in k punct_kinds.
(** generated.rs:196 [is_literal] *)
Definition is_literal (k : kind) : bool := kind_in k [INTEGER_NUMBER; BYTE_STRING; HEX_STRING].

(** generated.rs:197-221 [from_keyword], as a table *)
Definition keyword_table : list (text * kind) :=
  [
   (`"struct", STRUCT_KW);
   (`"script", SCRIPT_KW);
   (`"module", MODULE_KW);
   (`"const", CONST_KW);
   (`"use", USE_KW);
   (`"as", AS_KW);
   (`"let", LET_KW);
   (`"mut", MUT_KW);
   (`"return", RETURN_KW);
   (`"fun", FUN_KW);
   (`"true", TRUE_KW);
   (`"false", FALSE_KW);
   (`"move", MOVE_KW);
   (`"while", WHILE_KW);
   (`"if", IF_KW);
   (`"else", ELSE_KW);
   (`"break", BREAK_KW);
   (`"continue", CONTINUE_KW);
   (`"address", ADDRESS_KW)].
Definition from_keyword (s : text) : option kind := alookup text_eqb s keyword_table.

(** generated.rs:222-252 [from_char], as a table *)
Definition char_table : list (char * kind) :=
  [
   (58, COLON);
   (59, SEMICOLON);
   (44, COMMA);
   (40, L_PAREN);
   (41, R_PAREN);
   (123, L_BRACE);
   (125, R_BRACE);
   (91, L_BRACK);
   (93, R_BRACK);
   (43, PLUS);
   (45, MINUS);
   (42, STAR);
   (47, SLASH);
   (37, MOD);
   (35, NUMSIGN);
   (64, ATSIGN);
   (46, DOT);
   (38, AMP);
   (94, CARET);
   (124, PIPE);
   (33, BANG);
   (61, EQ);
   (62, GT);
   (60, LT);
   (95, WILDCARD)].
Definition from_char (c : char) : option kind := alookup N.eqb c char_table.

(** derived Debug: the name of the constructor *)
Definition kind_name (k : kind) : text :=
  match k with
  | TOMBSTONE => `"TOMBSTONE"
  | EOF => `"EOF"
  | COLON => `"COLON"
  | COLON_COLON => `"COLON_COLON"
  | SEMICOLON => `"SEMICOLON"
  | COMMA => `"COMMA"
  | L_PAREN => `"L_PAREN"
  | R_PAREN => `"R_PAREN"
  | L_BRACE => `"L_BRACE"
  | R_BRACE => `"R_BRACE"
  | L_BRACK => `"L_BRACK"
  | R_BRACK => `"R_BRACK"
  | PLUS => `"PLUS"
  | MINUS => `"MINUS"
  | STAR => `"STAR"
  | SLASH => `"SLASH"
  | MOD => `"MOD"
  | NUMSIGN => `"NUMSIGN"
  | ATSIGN => `"ATSIGN"
  | DOT => `"DOT"
  | DOTDOT => `"DOTDOT"
  | AMP => `"AMP"
  | AMP_AMP => `"AMP_AMP"
  | AMP_MUT => `"AMP_MUT"
  | CARET => `"CARET"
  | PIPE => `"PIPE"
  | PIPE_PIPE => `"PIPE_PIPE"
  | BANG => `"BANG"
  | BANG_EQ => `"BANG_EQ"
  | EQ => `"EQ"
  | EQ_EQ => `"EQ_EQ"
  | EQ_EQ_GT => `"EQ_EQ_GT"
  | GT => `"GT"
  | GT_GT => `"GT_GT"
  | GT_EQ => `"GT_EQ"
  | LT => `"LT"
  | LT_LT => `"LT_LT"
  | LT_EQ => `"LT_EQ"
  | LT_EQ_EQ_GT => `"LT_EQ_EQ_GT"
  | WILDCARD => `"WILDCARD"
  | STRUCT_KW => `"STRUCT_KW"
  | SCRIPT_KW => `"SCRIPT_KW"
  | MODULE_KW => `"MODULE_KW"
  | CONST_KW => `"CONST_KW"
  | USE_KW => `"USE_KW"
  | AS_KW => `"AS_KW"
  | LET_KW => `"LET_KW"
  | MUT_KW => `"MUT_KW"
  | RETURN_KW => `"RETURN_KW"
  | FUN_KW => `"FUN_KW"
  | TRUE_KW => `"TRUE_KW"
  | FALSE_KW => `"FALSE_KW"
  | MOVE_KW => `"MOVE_KW"
  | WHILE_KW => `"WHILE_KW"
  | IF_KW => `"IF_KW"
  | ELSE_KW => `"ELSE_KW"
  | BREAK_KW => `"BREAK_KW"
  | CONTINUE_KW => `"CONTINUE_KW"
  | ADDRESS_KW => `"ADDRESS_KW"
  | INTEGER_NUMBER => `"INTEGER_NUMBER"
  | BYTE_STRING => `"BYTE_STRING"
  | HEX_STRING => `"HEX_STRING"
  | ERROR => `"ERROR"
  | IDENT => `"IDENT"
  | WHITESPACE => `"WHITESPACE"
  | COMMENT => `"COMMENT"
  | DIEM_ADDRESS => `"DIEM_ADDRESS"
  | SOURCE_FILE => `"SOURCE_FILE"
  | ADDRESS_DEF => `"ADDRESS_DEF"
  | ADDRESS_ITEM_LIST => `"ADDRESS_ITEM_LIST"
  | MODULE_DEF => `"MODULE_DEF"
  | ADDRESS_IDENT => `"ADDRESS_IDENT"
  | SCRIPT_DEF => `"SCRIPT_DEF"
  | FUNCTION_DEF => `"FUNCTION_DEF"
  | ITEM_LIST => `"ITEM_LIST"
  | NAME_REF => `"NAME_REF"
  | STRUCT => `"STRUCT"
  | RECORD_FIELD_LIST => `"RECORD_FIELD_LIST"
  | RECORD_FIELD => `"RECORD_FIELD"
  | GENERIC_PARAM_LIST => `"GENERIC_PARAM_LIST"
  | TYPE_PARAM => `"TYPE_PARAM"
  | TYPE_BOUND_LIST => `"TYPE_BOUND_LIST"
  | TYPE_BOUND => `"TYPE_BOUND"
  | PARAM_LIST => `"PARAM_LIST"
  | PARAM => `"PARAM"
  | RET_TYPE => `"RET_TYPE"
  | EXPR => `"EXPR"
  | BLOCK_EXPR => `"BLOCK_EXPR"
  | DOT_EXPR => `"DOT_EXPR"
  | CALL_EXPR => `"CALL_EXPR"
  | ARG_LIST => `"ARG_LIST"
  | RECORD_EXPR => `"RECORD_EXPR"
  | RECORD_EXPR_FIELD_LIST => `"RECORD_EXPR_FIELD_LIST"
  | RECORD_EXPR_FIELD => `"RECORD_EXPR_FIELD"
  | LITERAL => `"LITERAL"
  | PATH => `"PATH"
  | PATH_SEGMENT => `"PATH_SEGMENT"
  | NAME => `"NAME"
  | BIN_EXPR => `"BIN_EXPR"
  | PREFIX_EXPR => `"PREFIX_EXPR"
  | PATH_EXPR => `"PATH_EXPR"
  | PAREN_EXPR => `"PAREN_EXPR"
  | EXPR_STMT => `"EXPR_STMT"
  | LET_STMT => `"LET_STMT"
  | REF_TYPE => `"REF_TYPE"
  | PATH_TYPE => `"PATH_TYPE"
  | PAREN_PAT => `"PAREN_PAT"
  | TUPLE_PAT => `"TUPLE_PAT"
  | RECORD_PAT => `"RECORD_PAT"
  | RECORD_PAT_FIELD_LIST => `"RECORD_PAT_FIELD_LIST"
  | RECORD_PAT_FIELD => `"RECORD_PAT_FIELD"
  | PATH_PAT => `"PATH_PAT"
  | WILDCARD_PAT => `"WILDCARD_PAT"
  | REST_PAT => `"REST_PAT"
  | IDENT_PAT => `"IDENT_PAT"
  | ADDRESS_LIT => `"ADDRESS_LIT"
  | K_LAST => `"__LAST"
  end.
