(** Specification of unfinished programs: those of LenientSpec.v, in which parts
    are missing or have something else in their place, the way they do while a
    program is being typed.  Independent of the parser.

    In a tree [TErr m] marks the place of a missing part, [m] being the message
    that says what was expected there; [ERROR] nodes hold tokens that stand in
    the place of a part. *)
From Coq Require Import String.
From Verif Require Import Base Kinds LexSpec TreeSpec SyntaxSpec LenientSpec.
Local Open Scope N_scope.

(** ** What is missing *)
Definition m_name : text := `"expected a name".
Definition m_type : text := `"expected type".
Definition m_param_type : text := `"missing type for function parameter".
Definition m_params : text := `"expected function arguments".
Definition m_block : text := `"expected a block".
Definition m_body : text := `"expected `;` or `{`".
Definition m_modules : text := `"expected `{`".
Definition m_pattern : text := `"expected pattern".
Definition m_expr : text := `"expected expression".
Definition m_address_lit : text := `"expected address literal".
Definition m_address : text := `"expected valid address".
Definition m_field : text := `"expected field name".
Definition m_comma : text := `"expected COMMA".
Definition m_close : text := `"expected R_BRACE".
Definition m_semi : text := `"expected item, found `;`" ++ [cLF] ++ `"consider removing this semicolon".

(** [goes_on m k]: where the part [m] is missing, parsing goes on as if it had
    been there, provided that the next token is [k].  After a part that was
    skipped up to a known token, [k] is that token. *)
Inductive goes_on : text -> kind -> Prop :=
| go_name k : In k [STRUCT_KW; MODULE_KW; FUN_KW; SEMICOLON; L_BRACE; R_BRACE] -> goes_on m_name k
| go_type k : In k [R_PAREN; COMMA; L_BRACE; R_BRACE] -> goes_on m_type k
| go_param_type k : In k [R_PAREN; COMMA; IDENT] -> goes_on m_param_type k
| go_params k : In k [L_BRACE; COLON; FUN_KW; STRUCT_KW; SEMICOLON; R_BRACE; EOF] -> goes_on m_params k
| go_block k : In k [FUN_KW; STRUCT_KW; SEMICOLON; R_BRACE; EOF] -> goes_on m_block k
| go_body k : In k [FUN_KW; STRUCT_KW; R_BRACE; MODULE_KW; SCRIPT_KW; ADDRESS_KW; EOF] -> goes_on m_body k
| go_modules k : In k [MODULE_KW; SCRIPT_KW; ADDRESS_KW; EOF] -> goes_on m_modules k
| go_pattern k : In k [LET_KW; IF_KW; WHILE_KW; R_PAREN; COMMA; EQ; L_BRACE; R_BRACE] -> goes_on m_pattern k
| go_expr k : In k [SEMICOLON; R_PAREN; EOF] -> goes_on m_expr k
| go_address_lit k : In k [PLUS; MINUS; STAR; SLASH; SEMICOLON; R_PAREN; EOF] -> goes_on m_address_lit k
| go_address k : In k [ADDRESS_KW; MODULE_KW; SCRIPT_KW; L_BRACE; EOF] -> goes_on m_address k
| go_field k : ~ In k [IDENT; L_BRACE; COLON_COLON] -> goes_on m_field k
| go_comma : goes_on m_comma IDENT
| go_close : goes_on m_close EOF.

(** ** What stands in the wrong place *)
(** one token [k] in the place of a part: [TNode ERROR [TErr m; TTok k]] *)
Definition instead (m : text) (k : kind) : tree := TNode ERROR [TErr m; TTok k].
(** neither a beginning of the part nor a token that [goes_on]; an address is
    not a token *)
Definition wrong (first : list kind) (m : text) (k : kind) : Prop :=
  ~ In k [EOF; DIEM_ADDRESS; MUT_KW; DOT] /\ ~ In k first /\ ~ goes_on m k.
(** any tokens in the place of a part, up to one that [goes_on] *)
Definition skipped (m : text) (js : list kind) : tree := TNode ERROR (TErr m :: map TTok js).
Definition junk (first : list kind) (m : text) (js : list kind) : Prop :=
  (forall k r, js = k :: r -> ~ In k first) /\ Forall (fun k => ~ goes_on m k /\ k <> DIEM_ADDRESS) js.
Definition expr_first : list kind :=
  [STAR; BANG; MINUS; TRUE_KW; FALSE_KW; INTEGER_NUMBER; HEX_STRING; BYTE_STRING; ATSIGN; IDENT; L_PAREN; L_BRACE].

(** ** The grammar: the productions of LenientSpec.v, and those marked GAP *)
Inductive place :=
| Core (x : nt)
(* the name of a struct or function; its parameters; its body *)
| NameOf | ParamsOf | BodyOf
(* the address of an address block, and the block *)
| AddressOf | ModulesOf
(* a type; a pattern *)
| TypeOf | PatternOf
(* what is between parentheses *)
| Parens
(* the closing brace of a list of items or statements *)
| Close.
Coercion Core : nt >-> place.

Inductive gap : place -> list tree -> Prop :=
(* file ::= (module | script | address)* *)
| h_file_nil : gap File []
| h_file x f : gap TopItem [x] -> gap File f -> gap File (x :: f)
| h_top_module x : gap Module [x] -> gap TopItem [x]
(* script { items } *)
| h_script is c : gap Items is -> gap Close c ->
    gap TopItem [TNode SCRIPT_DEF [TTok SCRIPT_KW; TNode ITEM_LIST (TTok L_BRACE :: is ++ c)]]
| h_script_semi : gap TopItem [TNode SCRIPT_DEF [TTok SCRIPT_KW; TTok SEMICOLON]]
(* GAP: a script without a body *)
| h_script_gap : gap TopItem [TNode SCRIPT_DEF [TTok SCRIPT_KW; TErr m_body]]
(* address 0x1 { modules } *)
| h_address a b : gap AddressOf [a] -> gap ModulesOf [b] ->
    gap TopItem [TNode ADDRESS_DEF [TTok ADDRESS_KW; TNode ADDRESS_IDENT [a]; b]]
| h_address_of a : gap AddressName [a] -> gap AddressOf [a]
(* GAP: an address block without an address *)
| h_address_of_gap js : junk [IDENT; INTEGER_NUMBER] m_address js -> gap AddressOf [skipped m_address js]
| h_modules_of ms c : gap Modules ms -> gap Close c ->
    gap ModulesOf [TNode ADDRESS_ITEM_LIST (TTok L_BRACE :: ms ++ c)]
(* GAP: an address without a block *)
| h_modules_of_gap : gap ModulesOf [TErr m_modules]
| h_modules_nil : gap Modules []
| h_modules x f : gap Module [x] -> gap Modules f -> gap Modules (x :: f)
(* module M body *)
| h_module b : gap ModuleBody b -> gap Module [TNode MODULE_DEF (TTok MODULE_KW :: name_node :: b)]
(* module 0x1::M body *)
| h_module_at a b : gap AddressName [a] -> gap ModuleBody b ->
    gap Module [TNode MODULE_DEF (TTok MODULE_KW :: TNode ADDRESS_IDENT [a] :: TTok COLON_COLON :: name_node :: b)]
(* GAP: a module without a name *)
| h_module_gap is c : gap Items is -> gap Close c ->
    gap Module [TNode MODULE_DEF [TTok MODULE_KW; TErr m_name; TNode ITEM_LIST (TTok L_BRACE :: is ++ c)]]
| h_module_items is c : gap Items is -> gap Close c ->
    gap ModuleBody [TNode ITEM_LIST (TTok L_BRACE :: is ++ c)]
| h_module_semi : gap ModuleBody [TTok SEMICOLON]
(* GAP: a module without a body *)
| h_module_body_gap : gap ModuleBody [TErr m_body]
(* a hexadecimal number or a name *)
| h_address_hex : gap AddressName [TTok DIEM_ADDRESS]
| h_address_ident : gap AddressName [TTok IDENT]
| h_close : gap Close [TTok R_BRACE]
(* GAP: the closing brace is missing at the end of the file *)
| h_close_gap : gap Close [TErr m_close]
| h_items_nil : gap Items []
| h_items x f : gap Item [x] -> gap Items f -> gap Items (x :: f)
(* GAP: a semicolon behind an item *)
| h_items_semi x f : gap Item [x] -> gap Items f -> gap Items (x :: instead m_semi SEMICOLON :: f)
| h_item_fun x : gap Function [x] -> gap Item [x]
| h_item_struct x : gap Struct [x] -> gap Item [x]
| h_name : gap NameOf [name_node]
(* GAP: no name, or some other token *)
| h_name_gap : gap NameOf [TErr m_name]
| h_name_wrong k : wrong [IDENT] m_name k -> gap NameOf [instead m_name k]
(* struct S generics body *)
| h_struct n g b : gap NameOf [n] -> gap Generics g -> gap StructBody b ->
    gap Struct [TNode STRUCT (TTok STRUCT_KW :: n :: g ++ b)]
| h_struct_fields fs : gap (Commas Field) fs ->
    gap StructBody [TNode RECORD_FIELD_LIST (TTok L_BRACE :: fs ++ [TTok R_BRACE])]
| h_struct_semi : gap StructBody [TTok SEMICOLON]
(* GAP: a struct without a body *)
| h_struct_gap : gap StructBody [TErr m_body]
| h_field ty : gap TypeOf [ty] -> gap Field [TNode RECORD_FIELD [name_node; TTok COLON; ty]]
| h_generics_none : gap Generics []
| h_generics ps : gap (Commas TypeParam) ps ->
    gap Generics [TNode GENERIC_PARAM_LIST (TTok LT :: ps ++ [TTok GT])]
| h_type_param : gap TypeParam [TNode TYPE_PARAM [name_node]]
| h_type_param_bounds bs : gap Bounds bs ->
    gap TypeParam [TNode TYPE_PARAM [name_node; TTok COLON; TNode TYPE_BOUND_LIST bs]]
| h_bounds_nil : gap Bounds []
| h_bounds_one : gap Bounds [TNode TYPE_BOUND [name_node]]
| h_bounds_more bs : gap Bounds bs -> gap Bounds (TNode TYPE_BOUND [name_node] :: TTok PLUS :: bs)
(* fun f(params) ret block *)
| h_function n ps r b : gap NameOf [n] -> gap ParamsOf [ps] -> gap RetType r -> gap BodyOf [b] ->
    gap Function [TNode FUNCTION_DEF (TTok FUN_KW :: n :: ps :: r ++ [b])]
| h_params ps : gap (Commas Param) ps -> gap ParamsOf [TNode PARAM_LIST (TTok L_PAREN :: ps ++ [TTok R_PAREN])]
(* GAP: no parameters *)
| h_params_gap : gap ParamsOf [TErr m_params]
| h_body b : gap Block [b] -> gap BodyOf [b]
(* GAP: a function without a body *)
| h_body_gap : gap BodyOf [TErr m_block]
| h_param ty : gap TypeOf [ty] -> gap Param [TNode PARAM [name_node; TTok COLON; ty]]
(* GAP: a parameter without a type *)
| h_param_gap : gap Param [TNode PARAM [name_node; TErr m_param_type]]
| h_ret_none : gap RetType []
| h_ret ty : gap TypeOf [ty] -> gap RetType [TNode RET_TYPE [TTok COLON; ty]]
| h_type ty : gap Type_ [ty] -> gap TypeOf [ty]
(* GAP: no type behind a colon or an ampersand, or some other token *)
| h_type_gap : gap TypeOf [TErr m_type]
| h_type_wrong k : wrong [IDENT; AMP] m_type k -> gap TypeOf [instead m_type k]
| h_type_path p : gap Path_ [p] -> gap Type_ [TNode PATH_TYPE [p]]
| h_type_ref ty : gap TypeOf [ty] -> gap Type_ [TNode REF_TYPE [TTok AMP; ty]]
| h_type_ref_mut ty : gap TypeOf [ty] -> gap Type_ [TNode REF_TYPE [TTok AMP; TTok MUT_KW; ty]]
(* a::b::c *)
| h_path_name : gap Path_ [TNode PATH [segment_node]]
| h_path p : gap Path_ [p] -> gap Path_ [TNode PATH [p; TTok COLON_COLON; segment_node]]
(* { stmts } *)
| h_block ss c : gap Stmts ss -> gap Close c -> gap Block [TNode BLOCK_EXPR (TTok L_BRACE :: ss ++ c)]
| h_stmts_nil : gap Stmts []
| h_stmts_expr e ss : gap (Expr 1) [e] -> gap Stmts ss ->
    gap Stmts (TNode EXPR_STMT [e; TTok SEMICOLON] :: ss)
| h_stmts_open e ss : gap (Expr 1) [e] -> parted (fun k => k = SEMICOLON \/ takes e k) ss -> gap Stmts ss ->
    gap Stmts (TNode EXPR_STMT [e] :: ss)
| h_stmts_let l ss : gap Let_ l -> gap Stmts ss ->
    gap Stmts (TNode LET_STMT (l ++ [TTok SEMICOLON]) :: ss)
| h_stmts_let_open l ss : gap Let_ l -> parted (fun k => k = SEMICOLON \/ let_takes true l k) ss -> gap Stmts ss ->
    gap Stmts (TNode LET_STMT l :: ss)
(* GAP: a semicolon alone *)
| h_stmts_semi ss : gap Stmts ss -> gap Stmts (TNode EXPR_STMT [skipped m_expr []; TTok SEMICOLON] :: ss)
| h_let p a i : gap PatternOf [p] -> gap TypeAnnot a -> gap Init i ->
    gap Let_ (TTok LET_KW :: p :: a ++ i)
| h_annot_none : gap TypeAnnot []
| h_annot ty : gap TypeOf [ty] -> gap TypeAnnot [TTok COLON; ty]
| h_init_none : gap Init []
| h_init e : gap (Expr 1) [e] -> gap Init [TTok EQ; e]
(* GAP: nothing, or no expression, behind an equals sign *)
| h_init_gap js : junk expr_first m_expr js -> gap Init [TTok EQ; skipped m_expr js]
(* patterns *)
| h_pattern p : gap Pattern_ [p] -> gap PatternOf [p]
(* GAP: no pattern behind [let] or a colon, or some other token *)
| h_pattern_gap : gap PatternOf [TErr m_pattern]
| h_pattern_wrong k : wrong [IDENT; MUT_KW; L_PAREN; WILDCARD] m_pattern k -> gap PatternOf [instead m_pattern k]
| h_pat_name : gap Pattern_ [TNode IDENT_PAT [name_node]]
| h_pat_mut : gap Pattern_ [TNode IDENT_PAT [TTok MUT_KW; name_node]]
| h_pat_wildcard : gap Pattern_ [TNode WILDCARD_PAT [TTok WILDCARD]]
| h_pat_record fs : gap (Commas FieldPat) fs ->
    gap Pattern_ [TNode RECORD_PAT [TNode PATH [segment_node];
                   TNode RECORD_PAT_FIELD_LIST (TTok L_BRACE :: fs ++ [TTok R_BRACE])]]
| h_pat_paren p : gap Pattern_ [p] -> gap Pattern_ [TNode PAREN_PAT [TTok L_PAREN; p; TTok R_PAREN]]
| h_pat_tuple ps : gap (Commas Pattern_) ps -> length ps <> 1%nat ->
    gap Pattern_ [TNode TUPLE_PAT (TTok L_PAREN :: ps ++ [TTok R_PAREN])]
| h_field_pat_short : gap FieldPat [TNode RECORD_PAT_FIELD [TNode IDENT_PAT [name_node]]]
| h_field_pat_mut : gap FieldPat [TNode RECORD_PAT_FIELD [TNode IDENT_PAT [TTok MUT_KW; name_node]]]
| h_field_pat p : gap PatternOf [p] -> gap FieldPat [TNode RECORD_PAT_FIELD [name_ref_node; TTok COLON; p]]
(* expressions *)
| h_expr_unary p u : gap Unary [u] -> gap (Expr p) [u]
| h_expr_bin p q l op r : prec op = Some q -> p <= q -> gap (Expr q) [l] -> gap (Expr (q + 1)) [r] ->
    gap (Expr p) [TNode BIN_EXPR [l; TTok op; r]]
(* GAP: nothing, or no expression, behind an operator *)
| h_expr_bin_gap p q l op js : prec op = Some q -> p <= q -> gap (Expr q) [l] -> junk expr_first m_expr js ->
    gap (Expr p) [TNode BIN_EXPR [l; TTok op; skipped m_expr js]]
| h_unary op u : In op [STAR; BANG; MINUS] -> gap Unary [u] -> gap Unary [TNode PREFIX_EXPR [TTok op; u]]
| h_unary_gap op js : In op [STAR; BANG; MINUS] -> junk expr_first m_expr js ->
    gap Unary [TNode PREFIX_EXPR [TTok op; skipped m_expr js]]
| h_unary_postfix e : gap Postfix [e] -> gap Unary [e]
| h_postfix_atom e : gap Atom [e] -> gap Postfix [e]
| h_call e args : gap Postfix [e] -> gap (Commas (Expr 1)) args ->
    gap Postfix [TNode CALL_EXPR [e; TNode ARG_LIST (TTok L_PAREN :: args ++ [TTok R_PAREN])]]
| h_dot e : gap Postfix [e] -> gap Postfix [TNode DOT_EXPR [e; TTok DOT; name_ref_node]]
(* GAP: no field behind a dot *)
| h_dot_gap e : gap Postfix [e] -> gap Postfix [TNode DOT_EXPR [e; TTok DOT; TErr m_field]]
| h_literal k : In k [TRUE_KW; FALSE_KW; INTEGER_NUMBER; BYTE_STRING; HEX_STRING] -> gap Atom [TNode LITERAL [TTok k]]
| h_address_lit a : gap AddressName [a] -> gap Atom [TNode LITERAL [TNode ADDRESS_LIT [TTok ATSIGN; a]]]
(* GAP: no address behind an at sign *)
| h_address_lit_gap js : junk [IDENT; INTEGER_NUMBER] m_address_lit js ->
    gap Atom [TNode LITERAL [TNode ADDRESS_LIT [TTok ATSIGN; skipped m_address_lit js]]]
| h_path_expr p : gap Path_ [p] -> gap Atom [TNode PATH_EXPR [p]]
| h_record p fs : gap Path_ [p] -> gap (Commas FieldInit) fs ->
    gap Atom [TNode RECORD_EXPR [p; TNode RECORD_EXPR_FIELD_LIST (TTok L_BRACE :: fs ++ [TTok R_BRACE])]]
| h_paren es : gap Parens es -> gap Atom [TNode PAREN_EXPR (TTok L_PAREN :: es ++ [TTok R_PAREN])]
| h_parens_nil : gap Parens []
| h_parens e es : gap (Expr 1) [e] -> parted (takes e) es -> gap Parens es -> gap Parens (e :: es)
| h_block_expr b : gap Block [b] -> gap Atom [b]
| h_field_init_short e : gap (Expr 1) [e] -> begins [IDENT; INTEGER_NUMBER] e -> gap FieldInit [TNode RECORD_EXPR_FIELD [e]]
| h_field_init e : gap (Expr 1) [e] -> gap FieldInit [TNode RECORD_EXPR_FIELD [name_ref_node; TTok COLON; e]]
(* comma-separated lists *)
| h_commas_nil (x : nt) : gap (Commas x) []
| h_commas_last (x : nt) e : gap x [e] -> gap (Commas x) [e]
| h_commas_more (x : nt) e r : gap x [e] -> gap (Commas x) r -> gap (Commas x) (e :: TTok COMMA :: r)
(* GAP: no comma between two fields or parameters *)
| h_commas_gap (x : nt) e r : x = Field \/ x = Param -> gap x [e] -> gap (Commas x) r ->
    gap (Commas x) (e :: TErr m_comma :: r).

(** ** The tokens *)
(** the kind of token a leaf stands for *)
Definition token_kind (k : kind) : kind := match k with DIEM_ADDRESS => INTEGER_NUMBER | _ => k end.
(** what is skipped up to a token that [goes_on] *)
Definition skips (m : text) : bool :=
  existsb (text_eqb m) [m_expr; m_address_lit; m_address].
(** the tokens of a tree and the missing parts, from left to right *)
Fixpoint row (t : tree) : list (kind + text) :=
  match t with
  | TTok k => [inl (token_kind k)]
  | TErr m => [inr m]
  | TNode ERROR (TErr m :: cs) => flat_map row cs ++ (if skips m then [inr m] else [])
  | TNode _ cs => flat_map row cs
  end.
(** the first token of a row, [k] if there is none *)
Fixpoint next (r : list (kind + text)) (k : kind) : kind :=
  match r with
  | [] => k
  | inl k' :: _ => k'
  | inr _ :: r => next r k
  end.
(** parsing goes on behind each missing part; [k] is the token behind the row *)
Fixpoint recovers (r : list (kind + text)) (k : kind) : Prop :=
  match r with
  | [] => True
  | inl _ :: r => recovers r k
  | inr m :: r => goes_on m (next r k) /\ recovers r k
  end.

(** ** The result *)
(** the tree without the marks *)
Fixpoint unmarked (t : tree) : list tree :=
  match t with
  | TNode k cs => [TNode k (flat_map unmarked cs)]
  | TTok k => [TTok k]
  | TErr _ => []
  end.
(** the messages, from left to right *)
Fixpoint complaints (t : tree) : list text :=
  match t with
  | TNode _ cs => flat_map complaints cs
  | TTok _ => []
  | TErr m => [m]
  end.

(** ** The size *)
(** a statement without its semicolon *)
Definition unended (x : tree) : bool :=
  match x with
  | TNode EXPR_STMT [_] => true
  | TNode LET_STMT cs => negb (existsb (fun c => match c with TTok SEMICOLON => true | _ => false end) cs)
  | _ => false
  end.
(** the number of those in front of another statement *)
Fixpoint joints (ss : list tree) : nat :=
  match ss with
  | [] => O
  | x :: r => ((if unended x then match r with TNode _ _ :: _ => 1 | _ => 0 end else 0) + joints r)%nat
  end.
(** the number of places where phrases follow each other with nothing in between: statements, and expressions in
    parentheses *)
Definition unseparated (k : kind) (cs : list tree) : nat :=
  match k with
  | BLOCK_EXPR => joints (tl cs)
  | PAREN_EXPR => (length cs - 3)%nat
  | _ => O
  end.
Fixpoint loose1 (t : tree) : nat :=
  match t with
  | TNode k cs => (unseparated k cs + fold_right (fun c n => loose1 c + n) O cs)%nat
  | TTok _ | TErr _ => O
  end.
Definition loose (f : list tree) : nat := fold_right (fun c n => (loose1 c + n)%nat) O f.
(** what the parser spends its steps on: the tokens, the missing parts, and these places *)
Definition extent (f : list tree) : N :=
  N.of_nat (length (flat_map leaves f) + length (flat_map complaints f) + loose f).

(** The message [m], put at the position [pos] of the text with tokens [ws],
    stands behind exactly [n] tokens, and right behind the last of them or right
    in front of the next one (or at the end), with no blanks in between. *)
Definition beside (ws : list (kind * text)) (m : text * nat) (e : text * N) : Prop :=
  fst e = fst m /\ exists a b, ws = a ++ b /\ snd e = tlen (concat (map snd a)) /\ length (proper a) = snd m /\
    ((exists a' p, a = a' ++ [p] /\ is_trivia (fst p) = false) \/ (forall p b', b = p :: b' -> is_trivia (fst p) = false)).

(** [t] is an unfinished program with tree [f], in a layout the parser copes with. *)
Record unfinished (t : text) (f : list tree) : Prop := {
  uf_tree : gap File f;
  uf_words : exists ws, token_stream t ws /\ Forall2 stands_for (flat_map leaves f) (proper ws) /\
    ~ comment_in_the_way ws /\ ~ glued ws;
  uf_recovers : recovers (flat_map row f) EOF
}.
