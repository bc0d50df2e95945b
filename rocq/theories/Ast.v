(** Model of the typed AST: crates/syntax/src/ast.rs and ast/nodes.rs.  A
    [SyntaxNode] is represented by its green node; parents and offsets are not
    used by the accessors. *)
From Verif Require Import Base Kinds Sink.
Local Open Scope N_scope.

Definition is_node (g : green) : bool := match g with GNode _ _ => true | GTok _ _ => false end.
Definition gkind (g : green) : kind := match g with GNode k _ => k | GTok k _ => k end.
Definition gchildren (g : green) : list green := match g with GNode _ cs => cs | GTok _ _ => [] end.
(** rowan: [SyntaxNode::children] (nodes only) *)
Definition node_children (g : green) : list green := filter is_node (gchildren g).

Fixpoint find_map {A B} (f : A -> option B) (l : list A) : option B :=
  match l with
  | [] => None
  | x :: r => match f x with Some y => Some y | None => find_map f r end
  end.
Fixpoint filter_map {A B} (f : A -> option B) (l : list A) : list B :=
  match l with
  | [] => []
  | x :: r => match f x with Some y => y :: filter_map f r | None => filter_map f r end
  end.

(** ast.rs:82-84 [support::child]; ast.rs:68-79 and 86-88 [support::children]
    (the items of the iterator); ast.rs:90-92 [support::token] *)
Definition child {N} (cast : green -> option N) (g : green) : option N := find_map cast (node_children g).
Definition children {N} (cast : green -> option N) (g : green) : list N := filter_map cast (node_children g).
Definition token (g : green) (k : kind) : option green :=
  find_map (fun c => if is_node c then None else if kind_eqb (gkind c) k then Some c else None) (gchildren g).

(** nodes.rs: a struct holding the node; [cast] checks the kind (nodes.rs:68-133) *)
Inductive source_file := SourceFile_ (syntax : green).
Inductive script_def := ScriptDef_ (syntax : green).
Inductive function_def := FunctionDef_ (syntax : green).
Inductive expr_stmt := ExprStmt_ (syntax : green).
Inductive bin_expr := BinExpr_ (syntax : green).
Inductive literal := Literal_ (syntax : green).
Inductive expr := EBin (b : bin_expr) | ELit (l : literal).      (* nodes.rs:64-67 *)
Definition cast_script (g : green) : option script_def := if kind_eqb (gkind g) SCRIPT_DEF then Some (ScriptDef_ g) else None.
Definition cast_function (g : green) : option function_def := if kind_eqb (gkind g) FUNCTION_DEF then Some (FunctionDef_ g) else None.
Definition cast_expr_stmt (g : green) : option expr_stmt := if kind_eqb (gkind g) EXPR_STMT then Some (ExprStmt_ g) else None.
(** nodes.rs:140-149 *)
Definition cast_expr (g : green) : option expr :=
  match gkind g with
  | BIN_EXPR => Some (EBin (BinExpr_ g))
  | LITERAL => Some (ELit (Literal_ g))
  | _ => None
  end.
(** nodes.rs:150-155 *)
Definition expr_syntax (e : expr) : green :=
  match e with EBin (BinExpr_ g) => g | ELit (Literal_ g) => g end.
Definition bin_syntax (b : bin_expr) : green := match b with BinExpr_ g => g end.

(** nodes.rs:9-11 [SourceFile] *)
Definition script_defs (f : source_file) : list script_def := match f with SourceFile_ g => children cast_script g end.
(** nodes.rs:16-20 [ScriptDef] *)
Definition script_syntax (s : script_def) : green := match s with ScriptDef_ g => g end.
Definition script_l_brace (s : script_def) : option green := token (script_syntax s) L_BRACE.
Definition function_defs (s : script_def) : list function_def := children cast_function (script_syntax s).
Definition script_r_brace (s : script_def) : option green := token (script_syntax s) R_BRACE.
(** nodes.rs:25-33 [FunctionDef] *)
Definition function_syntax (f : function_def) : green := match f with FunctionDef_ g => g end.
Definition fun_token (f : function_def) : option green := token (function_syntax f) FUN_KW.
Definition ident_token (f : function_def) : option green := token (function_syntax f) IDENT.
Definition function_l_paren (f : function_def) : option green := token (function_syntax f) L_PAREN.
Definition function_r_paren (f : function_def) : option green := token (function_syntax f) R_PAREN.
Definition function_l_brace (f : function_def) : option green := token (function_syntax f) L_BRACE.
Definition expr_stmts (f : function_def) : list expr_stmt := children cast_expr_stmt (function_syntax f).
Definition function_r_brace (f : function_def) : option green := token (function_syntax f) R_BRACE.
(** nodes.rs:38-41 [ExprStmt] *)
Definition stmt_syntax (s : expr_stmt) : green := match s with ExprStmt_ g => g end.
Definition stmt_expr (s : expr_stmt) : option expr := child cast_expr (stmt_syntax s).
Definition semicolon_token (s : expr_stmt) : option green := token (stmt_syntax s) SEMICOLON.
(** nodes.rs:46-54 [BinExpr]; [lhs] and [rhs] have the same body *)
Definition lhs (b : bin_expr) : option expr := child cast_expr (bin_syntax b).
Definition rhs (b : bin_expr) : option expr := child cast_expr (bin_syntax b).
Definition plus_token (b : bin_expr) := token (bin_syntax b) PLUS.
Definition minus_token (b : bin_expr) := token (bin_syntax b) MINUS.
Definition star_token (b : bin_expr) := token (bin_syntax b) STAR.
Definition slash_token (b : bin_expr) := token (bin_syntax b) SLASH.
Definition mod_token (b : bin_expr) := token (bin_syntax b) MOD.
(** nodes.rs:59-62 [Literal] *)
Definition literal_syntax (l : literal) : green := match l with Literal_ g => g end.
Definition true_token (l : literal) := token (literal_syntax l) TRUE_KW.
Definition false_token (l : literal) := token (literal_syntax l) FALSE_KW.

(** nodes.rs:69-79 [SourceFile::cast], nodes.rs:102-111 [ExprStmt::cast] and the rest are the kind tests above *)
Definition cast_source_file (g : green) : option source_file := if kind_eqb (gkind g) SOURCE_FILE then Some (SourceFile_ g) else None.
Definition cast_bin (g : green) : option bin_expr := if kind_eqb (gkind g) BIN_EXPR then Some (BinExpr_ g) else None.
Definition cast_literal (g : green) : option literal := if kind_eqb (gkind g) LITERAL then Some (Literal_ g) else None.

(** crates/syntax/src/lib.rs:56-80 [Parse::tree], [Parse::errors], [Parse::ok]; a [Parse] is a
    tree with its errors *)
Definition parse_tree (p : green * list syntax_error) : res source_file := unwrap (cast_source_file (fst p)).
Definition parse_errors (p : green * list syntax_error) : list syntax_error := snd p.
Definition parse_ok (p : green * list syntax_error) : res (source_file + list syntax_error) :=
  match parse_errors p with
  | [] => let! f := parse_tree p in Ok (inl f)
  | errs => Ok (inr errs)
  end.

(** ast/tokens.rs: typed tokens.  [cast] checks the kind (tokens.rs:17-26, 38-47,
    59-68, 80-89, 101-110); ast.rs:56-58 [AstToken::text].  A [SyntaxToken] is a
    [GTok]; casting a node cannot happen (its type differs) and gives [None] here. *)
Inductive whitespace_token := Whitespace_ (syntax : green).
Inductive comment_token := Comment_ (syntax : green).
Inductive hex_string_token := HexString_ (syntax : green).
Inductive byte_string_token := ByteString_ (syntax : green).
Inductive integer_token := IntegerNumber_ (syntax : green).
Definition cast_tok {A} (mk : green -> A) (k : kind) (g : green) : option A :=
  match g with GTok k' _ => if kind_eqb k' k then Some (mk g) else None | GNode _ _ => None end.
Definition cast_whitespace := cast_tok Whitespace_ WHITESPACE.
Definition cast_comment := cast_tok Comment_ COMMENT.
Definition cast_hex_string := cast_tok HexString_ HEX_STRING.
Definition cast_byte_string := cast_tok ByteString_ BYTE_STRING.
Definition cast_integer := cast_tok IntegerNumber_ INTEGER_NUMBER.
Definition tok_text (g : green) : text := match g with GTok _ w => w | GNode _ _ => [] end.
Definition whitespace_text (t : whitespace_token) : text := match t with Whitespace_ g => tok_text g end.
Definition comment_text (t : comment_token) : text := match t with Comment_ g => tok_text g end.
Definition byte_string_text (t : byte_string_token) : text := match t with ByteString_ g => tok_text g end.
Definition integer_text (t : integer_token) : text := match t with IntegerNumber_ g => tok_text g end.
