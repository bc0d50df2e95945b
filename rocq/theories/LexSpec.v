(** Specification of the tokens of the language, independent of the lexer:
    which character strings are lexemes of which kind. *)
From Coq Require Import String.
From Verif Require Import Base Kinds.
Local Open Scope N_scope.

(** character classes, by code point *)
Definition digit (c : char) : Prop := 48 <= c <= 57.                         (* 0-9 *)
Definition hex_digit (c : char) : Prop := digit c \/ 97 <= c <= 102 \/ 65 <= c <= 70.
Definition letter_ (c : char) : Prop := 65 <= c <= 90 \/ 97 <= c <= 122 \/ c = 95.
Definition name_char (c : char) : Prop := letter_ c \/ digit c.
Definition blank (c : char) : Prop := c = 32 \/ c = 10 \/ c = 9.

(** contents of a quoted string: no raw quote or newline, a backslash takes
    the next character with it *)
Inductive string_body : text -> Prop :=
| sb_nil : string_body []
| sb_char c r : c <> 34 -> c <> 92 -> c <> 10 -> string_body r -> string_body (c :: r)
| sb_escape c r : c <> 10 -> string_body r -> string_body (92 :: c :: r).

Definition suffixes : list text := [[]; `"u8"; `"u64"; `"u128"].

Definition keywords : list (text * kind) :=
  [(`"struct", STRUCT_KW); (`"script", SCRIPT_KW); (`"module", MODULE_KW); (`"const", CONST_KW);
   (`"use", USE_KW); (`"as", AS_KW); (`"let", LET_KW); (`"mut", MUT_KW); (`"return", RETURN_KW);
   (`"fun", FUN_KW); (`"true", TRUE_KW); (`"false", FALSE_KW); (`"move", MOVE_KW);
   (`"while", WHILE_KW); (`"if", IF_KW); (`"else", ELSE_KW); (`"break", BREAK_KW);
   (`"continue", CONTINUE_KW); (`"address", ADDRESS_KW)].

Definition puncts : list (text * kind) :=
  [(`":", COLON); (`"::", COLON_COLON); (`";", SEMICOLON); (`",", COMMA); (`"(", L_PAREN);
   (`")", R_PAREN); (`"{", L_BRACE); (`"}", R_BRACE); (`"[", L_BRACK); (`"]", R_BRACK);
   (`"+", PLUS); (`"-", MINUS); (`"*", STAR); (`"/", SLASH); (`"%", MOD); (`"#", NUMSIGN);
   (`"@", ATSIGN); (`".", DOT); (`"..", DOTDOT); (`"&", AMP); (`"&&", AMP_AMP);
   (`"&mut", AMP_MUT); (`"^", CARET); (`"|", PIPE); (`"||", PIPE_PIPE); (`"!", BANG);
   (`"!=", BANG_EQ); (`"=", EQ); (`"==", EQ_EQ); (`"==>", EQ_EQ_GT); (`">", GT); (`">>", GT_GT);
   (`">=", GT_EQ); (`"<", LT); (`"<<", LT_LT); (`"<=", LT_EQ); (`"<==>", LT_EQ_EQ_GT)].

Inductive lexeme : kind -> text -> Prop :=
| lex_space w : w <> [] -> Forall blank w -> lexeme WHITESPACE w
| lex_comment_line b : ~ In 10 b -> lexeme COMMENT (`"//" ++ b ++ [10])
| lex_comment_eof b : ~ In 10 b -> lexeme COMMENT (`"//" ++ b)
| lex_dec ds suf : ds <> [] -> Forall digit ds -> In suf suffixes -> lexeme INTEGER_NUMBER (ds ++ suf)
| lex_hex hs suf : hs ++ suf <> [] -> Forall hex_digit hs -> In suf suffixes ->
    lexeme INTEGER_NUMBER (`"0x" ++ hs ++ suf)
| lex_bytes p b : p = 120 \/ p = 98 -> string_body b -> lexeme BYTE_STRING (p :: 34 :: b ++ [34])
| lex_keyword w k : In (w, k) keywords -> lexeme k w
| lex_ident c r : letter_ c -> Forall name_char r -> ~ In (c :: r) (map fst keywords) ->
    lexeme IDENT (c :: r)
| lex_punct w k : In (w, k) puncts -> lexeme k w.

(** [w] is the longest prefix of [t] that is a lexeme. *)
Definition longest_lexeme (t w : text) : Prop :=
  (exists rest, t = w ++ rest) /\
  forall k' w' rest', t = w' ++ rest' -> lexeme k' w' -> (length w' <= length w)%nat.

Definition ascii (t : text) : Prop := Forall (fun c => c < 128) t.

(** Texts covered exactly by consecutive pieces with the given byte lengths. *)
Definition tiles (t : text) (lens : list N) : Prop :=
  exists pieces, concat pieces = t /\ map tlen pieces = lens.

(** The reference tokenizer: repeatedly cut off the longest lexeme. *)
Inductive token_stream : text -> list (kind * text) -> Prop :=
| stream_end : token_stream [] []
| stream_token k w rest ws : lexeme k w -> longest_lexeme (w ++ rest) w ->
    token_stream rest ws -> token_stream (w ++ rest) ((k, w) :: ws).

(** Byte strings hold ASCII characters only (as the Move language requires);
    nothing is asked of comments. *)
Definition ascii_strings (t : text) : Prop :=
  forall a w b, t = a ++ w ++ b -> lexeme BYTE_STRING w -> ascii w.

(** [k] is the kind of the token a text starts with. *)
Definition token_at (t : text) (k : kind) : Prop :=
  (t = [] /\ k = EOF) \/ exists w, longest_lexeme t w /\ lexeme k w.

(** The characters with the Unicode property White_Space *)
Definition unicode_white_space : list N :=
  [0x9; 0xA; 0xB; 0xC; 0xD; 0x20; 0x85; 0xA0; 0x1680; 0x2000; 0x2001; 0x2002; 0x2003; 0x2004; 0x2005; 0x2006; 0x2007;
   0x2008; 0x2009; 0x200A; 0x2028; 0x2029; 0x202F; 0x205F; 0x3000].
