(** What the parser accepts without an error message: the grammar of
    SyntaxSpec.v, with the rules marked RELAXED instead of the strict ones.
    Independent of the parser. *)
From Coq Require Import String.
From Verif Require Import Base Kinds LexSpec TreeSpec SyntaxSpec.
Local Open Scope N_scope.

(** the tokens of the phrase begin with one of the kinds [ks] *)
Definition begins (ks : list kind) (t : tree) : Prop := exists k r, leaves t = k :: r /\ In k ks.
(** a semicolon, or none *)
Definition opt_semi (s : list tree) : Prop := s = [] \/ s = [TTok SEMICOLON].

(** ** Where nothing separates two phrases
    The parser reads on as long as it can, so a phrase must not begin with a token the one before it could go on with. *)
(** the expression ends in the name of a variable, function or struct *)
Fixpoint last_path (e : tree) : bool :=
  match e with
  | TNode PATH_EXPR _ => true
  | TNode BIN_EXPR [_; _; r] => last_path r
  | TNode PREFIX_EXPR [_; u] => last_path u
  | _ => false
  end.
(** the expression [e] goes on with a token [k]: an operator, arguments, a field; the fields of a record *)
Definition takes (e : tree) (k : kind) : Prop :=
  (exists p, prec k = Some p) \/ In k [L_PAREN; DOT] \/ last_path e = true /\ k = L_BRACE.
(** the statement [let ...] goes on with a token [k]: its expression does, or [let x] with the fields of a record.
    The parser looks past blanks for these, not past comments: [plain] says that no comment is there. *)
Definition let_takes (plain : bool) (l : list tree) (k : kind) : Prop :=
  (exists l' e, l = l' ++ [TTok EQ; e] /\ takes e k) \/
  plain = true /\ l = [TTok LET_KW; TNode IDENT_PAT [name_node]] /\ k = L_BRACE.
(** the first token of [ss] is none of [T] *)
Definition parted (T : kind -> Prop) (ss : list tree) : Prop :=
  forall k r, flat_map leaves ss = k :: r -> ~ T k.
Fixpoint separate (es : list tree) : Prop :=
  match es with [] => True | e :: r => parted (takes e) r /\ separate r end.

Inductive accepts {plain : bool} : nt -> list tree -> Prop :=
(* file ::= (module | script | address)* *)
| n_file_nil : accepts File []
| n_file x f : accepts TopItem [x] -> accepts File f -> accepts File (x :: f)
| n_top_module x : accepts Module [x] -> accepts TopItem [x]
(* script { items } *)
| n_script is : accepts Items is ->
    accepts TopItem [TNode SCRIPT_DEF [TTok SCRIPT_KW; TNode ITEM_LIST (TTok L_BRACE :: is ++ [TTok R_BRACE])]]
(* RELAXED: a script without a body *)
| n_script_semi : accepts TopItem [TNode SCRIPT_DEF [TTok SCRIPT_KW; TTok SEMICOLON]]
(* address 0x1 { modules } *)
| n_address a ms : accepts AddressName [a] -> accepts Modules ms ->
    accepts TopItem [TNode ADDRESS_DEF [TTok ADDRESS_KW; TNode ADDRESS_IDENT [a];
                   TNode ADDRESS_ITEM_LIST (TTok L_BRACE :: ms ++ [TTok R_BRACE])]]
| n_modules_nil : accepts Modules []
| n_modules x f : accepts Module [x] -> accepts Modules f -> accepts Modules (x :: f)
(* module M body *)
| n_module b : accepts ModuleBody b -> accepts Module [TNode MODULE_DEF (TTok MODULE_KW :: name_node :: b)]
(* module 0x1::M body *)
| n_module_at a b : accepts AddressName [a] -> accepts ModuleBody b ->
    accepts Module [TNode MODULE_DEF (TTok MODULE_KW :: TNode ADDRESS_IDENT [a] :: TTok COLON_COLON :: name_node :: b)]
| n_module_items is : accepts Items is ->
    accepts ModuleBody [TNode ITEM_LIST (TTok L_BRACE :: is ++ [TTok R_BRACE])]
| n_module_semi : accepts ModuleBody [TTok SEMICOLON]
(* a hexadecimal number or a name *)
| n_address_hex : accepts AddressName [TTok DIEM_ADDRESS]
| n_address_ident : accepts AddressName [TTok IDENT]
| n_items_nil : accepts Items []
| n_items x f : accepts Item [x] -> accepts Items f -> accepts Items (x :: f)
| n_item_fun x : accepts Function [x] -> accepts Item [x]
| n_item_struct x : accepts Struct [x] -> accepts Item [x]
(* struct S generics body *)
| n_struct g b : accepts Generics g -> accepts StructBody b ->
    accepts Struct [TNode STRUCT (TTok STRUCT_KW :: name_node :: g ++ b)]
| n_struct_fields fs : accepts (Commas Field) fs ->
    accepts StructBody [TNode RECORD_FIELD_LIST (TTok L_BRACE :: fs ++ [TTok R_BRACE])]
| n_struct_semi : accepts StructBody [TTok SEMICOLON]
| n_field ty : accepts Type_ [ty] -> accepts Field [TNode RECORD_FIELD [name_node; TTok COLON; ty]]
| n_generics_none : accepts Generics []
| n_generics ps : accepts (Commas TypeParam) ps ->
    accepts Generics [TNode GENERIC_PARAM_LIST (TTok LT :: ps ++ [TTok GT])]
| n_type_param : accepts TypeParam [TNode TYPE_PARAM [name_node]]
| n_type_param_bounds bs : accepts Bounds bs ->
    accepts TypeParam [TNode TYPE_PARAM [name_node; TTok COLON; TNode TYPE_BOUND_LIST bs]]
(* RELAXED: no bound at all, and so also a plus sign after the last bound *)
| n_bounds_nil : accepts Bounds []
| n_bounds_one : accepts Bounds [TNode TYPE_BOUND [name_node]]
| n_bounds_more bs : accepts Bounds bs -> accepts Bounds (TNode TYPE_BOUND [name_node] :: TTok PLUS :: bs)
(* fun f(params) ret block *)
| n_function ps r b : accepts (Commas Param) ps -> accepts RetType r -> accepts Block [b] ->
    accepts Function [TNode FUNCTION_DEF (TTok FUN_KW :: name_node ::
      TNode PARAM_LIST (TTok L_PAREN :: ps ++ [TTok R_PAREN]) :: r ++ [b])]
| n_param ty : accepts Type_ [ty] -> accepts Param [TNode PARAM [name_node; TTok COLON; ty]]
| n_ret_none : accepts RetType []
| n_ret ty : accepts Type_ [ty] -> accepts RetType [TNode RET_TYPE [TTok COLON; ty]]
| n_type_path p : accepts Path_ [p] -> accepts Type_ [TNode PATH_TYPE [p]]
| n_type_ref ty : accepts Type_ [ty] -> accepts Type_ [TNode REF_TYPE [TTok AMP; ty]]
| n_type_ref_mut ty : accepts Type_ [ty] -> accepts Type_ [TNode REF_TYPE [TTok AMP; TTok MUT_KW; ty]]
(* a::b::c *)
| n_path_name : accepts Path_ [TNode PATH [segment_node]]
| n_path p : accepts Path_ [p] -> accepts Path_ [TNode PATH [p; TTok COLON_COLON; segment_node]]
(* { stmts } *)
| n_block ss : accepts Stmts ss -> accepts Block [TNode BLOCK_EXPR (TTok L_BRACE :: ss ++ [TTok R_BRACE])]
(* RELAXED: every semicolon may be left out *)
| n_stmts_nil : accepts Stmts []
| n_stmts_expr e s ss : accepts (Expr 1) [e] -> opt_semi s -> (s = [] -> parted (takes e) ss) -> accepts Stmts ss ->
    accepts Stmts (TNode EXPR_STMT (e :: s) :: ss)
| n_stmts_let l s ss : accepts Let_ l -> opt_semi s -> (s = [] -> parted (let_takes plain l) ss) -> accepts Stmts ss ->
    accepts Stmts (TNode LET_STMT (l ++ s) :: ss)
| n_let p a i : accepts Pattern_ [p] -> accepts TypeAnnot a -> accepts Init i ->
    accepts Let_ (TTok LET_KW :: p :: a ++ i)
| n_annot_none : accepts TypeAnnot []
| n_annot ty : accepts Type_ [ty] -> accepts TypeAnnot [TTok COLON; ty]
| n_init_none : accepts Init []
| n_init e : accepts (Expr 1) [e] -> accepts Init [TTok EQ; e]
(* patterns *)
| n_pat_name : accepts Pattern_ [TNode IDENT_PAT [name_node]]
| n_pat_mut : accepts Pattern_ [TNode IDENT_PAT [TTok MUT_KW; name_node]]
(* RELAXED: an underscore (but the lexer never makes this token) *)
| n_pat_wildcard : accepts Pattern_ [TNode WILDCARD_PAT [TTok WILDCARD]]
| n_pat_record fs : accepts (Commas FieldPat) fs ->
    accepts Pattern_ [TNode RECORD_PAT [TNode PATH [segment_node];
                   TNode RECORD_PAT_FIELD_LIST (TTok L_BRACE :: fs ++ [TTok R_BRACE])]]
| n_pat_paren p : accepts Pattern_ [p] -> accepts Pattern_ [TNode PAREN_PAT [TTok L_PAREN; p; TTok R_PAREN]]
| n_pat_tuple ps : accepts (Commas Pattern_) ps -> length ps <> 1%nat ->
    accepts Pattern_ [TNode TUPLE_PAT (TTok L_PAREN :: ps ++ [TTok R_PAREN])]
| n_field_pat_short : accepts FieldPat [TNode RECORD_PAT_FIELD [TNode IDENT_PAT [name_node]]]
(* RELAXED: mut x *)
| n_field_pat_mut : accepts FieldPat [TNode RECORD_PAT_FIELD [TNode IDENT_PAT [TTok MUT_KW; name_node]]]
| n_field_pat p : accepts Pattern_ [p] -> accepts FieldPat [TNode RECORD_PAT_FIELD [name_ref_node; TTok COLON; p]]
(* expressions *)
| n_expr_unary p u : accepts Unary [u] -> accepts (Expr p) [u]
| n_expr_bin p q l op r : prec op = Some q -> p <= q -> accepts (Expr q) [l] -> accepts (Expr (q + 1)) [r] ->
    accepts (Expr p) [TNode BIN_EXPR [l; TTok op; r]]
| n_unary op u : In op [STAR; BANG; MINUS] -> accepts Unary [u] -> accepts Unary [TNode PREFIX_EXPR [TTok op; u]]
| n_unary_postfix e : accepts Postfix [e] -> accepts Unary [e]
| n_postfix_atom e : accepts Atom [e] -> accepts Postfix [e]
| n_call e args : accepts Postfix [e] -> accepts (Commas (Expr 1)) args ->
    accepts Postfix [TNode CALL_EXPR [e; TNode ARG_LIST (TTok L_PAREN :: args ++ [TTok R_PAREN])]]
| n_dot e : accepts Postfix [e] -> accepts Postfix [TNode DOT_EXPR [e; TTok DOT; name_ref_node]]
(* RELAXED: HEX_STRING (but the lexer never makes this token) *)
| n_literal k : In k [TRUE_KW; FALSE_KW; INTEGER_NUMBER; BYTE_STRING; HEX_STRING] ->
    accepts Atom [TNode LITERAL [TTok k]]
| n_address_lit a : accepts AddressName [a] -> accepts Atom [TNode LITERAL [TNode ADDRESS_LIT [TTok ATSIGN; a]]]
| n_path_expr p : accepts Path_ [p] -> accepts Atom [TNode PATH_EXPR [p]]
| n_record p fs : accepts Path_ [p] -> accepts (Commas FieldInit) fs ->
    accepts Atom [TNode RECORD_EXPR [p; TNode RECORD_EXPR_FIELD_LIST (TTok L_BRACE :: fs ++ [TTok R_BRACE])]]
(* RELAXED: any number of expressions between parentheses, nothing between them *)
| n_paren es : Forall (fun e => accepts (Expr 1) [e]) es -> separate es ->
    accepts Atom [TNode PAREN_EXPR (TTok L_PAREN :: es ++ [TTok R_PAREN])]
| n_block_expr b : accepts Block [b] -> accepts Atom [b]
(* RELAXED: any expression that begins with a name or a number *)
| n_field_init_short e : accepts (Expr 1) [e] -> begins [IDENT; INTEGER_NUMBER] e ->
    accepts FieldInit [TNode RECORD_EXPR_FIELD [e]]
| n_field_init e : accepts (Expr 1) [e] -> accepts FieldInit [TNode RECORD_EXPR_FIELD [name_ref_node; TTok COLON; e]]
(* comma-separated lists *)
| n_commas_nil x : accepts (Commas x) []
| n_commas_last x e : accepts x [e] -> accepts (Commas x) [e]
| n_commas_more x e r : accepts x [e] -> accepts (Commas x) r -> accepts (Commas x) (e :: TTok COMMA :: r).
(** the grammar of all texts, and of those without comments in the way of the parser *)
Notation lenient := (@accepts false).
Notation exact := (@accepts true).
