(** The trees of all files the parser returns a tree for, with and without
    mistakes: a grammar with a production for each way in which a mistake is
    recovered from.  Independent of the parser.

    As in GapSpec.v, [TErr m] marks the place of the message [m] in the tree,
    [instead m k] is a wrong token and [skipped m js] are tokens skipped. *)
From Coq Require Import String.
From Verif Require Import Base Kinds TreeSpec SyntaxSpec LenientSpec GapSpec.
Local Open Scope N_scope.

(** ** Messages that GapSpec.v has not *)
Definition m_ident : text := `"expected identifier".
Definition m_value_param : text := `"expected value parameter".
Definition m_type_param : text := `"expected type parameter".
Definition m_a_pattern : text := `"expected a pattern".
Definition m_pat_ident : text := `"expected ident".
Definition m_a_field : text := `"expected a field".
Definition m_field_decl : text := `"expected field declaration".
Definition m_item : text := `"expected an item".
(** a token that should be there *)
Definition m_token (k : kind) : text := `"expected " ++ kind_name k.

(** a token, or the message that it is missing *)
Definition token_or_message (k : kind) (x : tree) : Prop := x = TTok k \/ x = TErr (m_token k).

(** A part that is not there: a message alone, in front of a brace or a token in
    [stop]; otherwise the message and the token that stands there, in an ERROR
    node (with no token, at the end of the file). *)
Inductive missing (m : text) (stop : list kind) : tree -> Prop :=
| missing_here : missing m stop (TErr m)
| missing_end : missing m stop (TNode ERROR [TErr m])
| missing_wrong k : ~ In k (EOF :: L_BRACE :: R_BRACE :: stop) -> missing m stop (instead m k).

(** tokens up to one of [stop] or the end of the file *)
Definition all_but (stop : list kind) (js : list kind) : Prop := Forall (fun k => k <> EOF /\ ~ In k stop) js.

Definition item_stop : list kind := [STRUCT_KW; MODULE_KW; FUN_KW; SEMICOLON].
Definition type_stop : list kind := [R_PAREN; COMMA].
Definition pattern_stop : list kind := [LET_KW; IF_KW; WHILE_KW; R_PAREN; COMMA; EQ].
Definition operator_stop : list kind := [PLUS; MINUS; STAR; SLASH; SEMICOLON; R_PAREN].
Definition top_stop : list kind := [ADDRESS_KW; MODULE_KW; SCRIPT_KW; L_BRACE].

(** ** The grammar *)
Inductive sort :=
| RFile | RTop | RModules | RModule | RBody | RItems | RItem | RName (stop : list kind) | RAddress (stop : list kind)
| RFields | RField | RGenerics | RTypeParams | RTypeParam | RBounds
| RParamList | RParams | RParam | RFunBody | RRet | RType | RPath
| RBlock | RStmts | RLet (* what follows [let] *) | RAnnot | RInit | RJunkBlock (m : text) | RJunkStmts
| RPattern | RPatterns | RFieldPat | RFieldPats
| RExpr (p : N) | RUnary | RPostfix | RAtom | RArgs | RParens | RFieldInit | RFieldInits.

Inductive made : sort -> list tree -> Prop :=
(* files *)
| k_file_nil : made RFile []
| k_file x f : made RTop [x] -> made RFile f -> made RFile (x :: f)
| k_top_module x : made RModule [x] -> made RTop [x]
| k_top_script b : made RBody b -> made RTop [TNode SCRIPT_DEF (TTok SCRIPT_KW :: b)]
| k_top_address a ms c : made (RAddress top_stop) [a] -> made RModules ms -> token_or_message R_BRACE c ->
    made RTop [TNode ADDRESS_DEF [TTok ADDRESS_KW; TNode ADDRESS_IDENT [a]; TNode ADDRESS_ITEM_LIST (TTok L_BRACE :: ms ++ [c])]]
| k_top_address_gap a : made (RAddress top_stop) [a] ->
    made RTop [TNode ADDRESS_DEF [TTok ADDRESS_KW; TNode ADDRESS_IDENT [a]; TErr m_modules]]
| k_modules_nil : made RModules []
| k_modules x f : made RModule [x] -> made RModules f -> made RModules (x :: f)
| k_module n b : made (RName []) [n] -> made RBody b -> made RModule [TNode MODULE_DEF (TTok MODULE_KW :: n :: b)]
| k_module_at a n b : made (RAddress [COLON_COLON]) [a] -> made (RName []) [n] -> made RBody b ->
    made RModule [TNode MODULE_DEF (TTok MODULE_KW :: TNode ADDRESS_IDENT [a] :: TTok COLON_COLON :: n :: b)]
| k_address_hex s : made (RAddress s) [TTok DIEM_ADDRESS]
| k_address_ident s : made (RAddress s) [TTok IDENT]
| k_address_skip s js : all_but s js -> hd_error js <> Some IDENT -> made (RAddress s) [skipped m_address js]
| k_body_items is c : made RItems is -> token_or_message R_BRACE c -> made RBody [TNode ITEM_LIST (TTok L_BRACE :: is ++ [c])]
| k_body_semi : made RBody [TTok SEMICOLON]
| k_body_gap : made RBody [TErr m_body]
(* items; only a semicolon may stand in the place of an item *)
| k_items_nil : made RItems []
| k_items x f : made RItem [x] -> made RItems f -> made RItems (x :: f)
| k_items_semi x f : made RItem [x] -> made RItems f -> made RItems (x :: instead m_semi SEMICOLON :: f)
| k_items_only_semi f : made RItems f -> made RItems (TNode ERROR [TErr m_item] :: instead m_semi SEMICOLON :: f)
| k_name s : made (RName s) [name_node]
| k_name_missing s x : missing m_name s x -> made (RName s) [x]
| k_struct n g fs c : made (RName item_stop) [n] -> made RGenerics g -> made RFields fs -> token_or_message R_BRACE c ->
    made RItem [TNode STRUCT (TTok STRUCT_KW :: n :: g ++ [TNode RECORD_FIELD_LIST (TTok L_BRACE :: fs ++ [c])])]
| k_struct_semi n g x : made (RName item_stop) [n] -> made RGenerics g -> x = TTok SEMICOLON \/ x = TErr m_body ->
    made RItem [TNode STRUCT (TTok STRUCT_KW :: n :: g ++ [x])]
| k_fields_nil : made RFields []
| k_fields_last x : made RField [x] -> made RFields [x]
| k_fields x c f : made RField [x] -> token_or_message COMMA c -> made RFields f -> made RFields (x :: c :: f)
| k_field c ty : token_or_message COLON c -> made RType [ty] -> made RField [TNode RECORD_FIELD [name_node; c; ty]]
| k_field_wrong k : ~ In k [IDENT; EOF; L_BRACE; R_BRACE] -> made RField [instead m_field_decl k]
| k_generics_none : made RGenerics []
| k_generics ps c : made RTypeParams ps -> token_or_message GT c -> made RGenerics [TNode GENERIC_PARAM_LIST (TTok LT :: ps ++ [c])]
| k_type_params_nil : made RTypeParams []
| k_type_params_last x : made RTypeParam [x] -> made RTypeParams [x]
| k_type_params x f : made RTypeParam [x] -> made RTypeParams f -> made RTypeParams (x :: TTok COMMA :: f)
| k_type_params_stop x : made RTypeParam [x] -> made RTypeParams [x; TErr (m_token COMMA)]
| k_type_param : made RTypeParam [TNode TYPE_PARAM [name_node]]
| k_type_param_bounds bs : made RBounds bs -> made RTypeParam [TNode TYPE_PARAM [name_node; TTok COLON; TNode TYPE_BOUND_LIST bs]]
| k_type_param_brace : made RTypeParam [TErr m_type_param]
| k_type_param_wrong k : ~ In k [IDENT; EOF; L_BRACE; R_BRACE; GT] -> made RTypeParam [instead m_type_param k]
| k_bounds_nil : made RBounds []
| k_bounds_one : made RBounds [TNode TYPE_BOUND [name_node]]
| k_bounds bs : made RBounds bs -> made RBounds (TNode TYPE_BOUND [name_node] :: TTok PLUS :: bs)
| k_function n ps r b : made (RName item_stop) [n] -> made RParamList [ps] -> made RRet r -> made RFunBody [b] ->
    made RItem [TNode FUNCTION_DEF (TTok FUN_KW :: n :: ps :: r ++ [b])]
| k_fun_body b : made RBlock [b] -> made RFunBody [b]
| k_fun_body_gap : made RFunBody [TErr m_block]
| k_param_list l c : made RParams l -> token_or_message R_PAREN c -> made RParamList [TNode PARAM_LIST (TTok L_PAREN :: l ++ [c])]
| k_param_list_gap : made RParamList [TErr m_params]
| k_params_nil : made RParams []
| k_params_stop : made RParams [TErr m_value_param]
| k_params_last x : made RParam [x] -> made RParams [x]
| k_params x c f : made RParam [x] -> token_or_message COMMA c -> made RParams f -> made RParams (x :: c :: f)
| k_param n ty : n = name_node \/ n = instead m_name AMP -> made RType [ty] -> made RParam [TNode PARAM [n; TTok COLON; ty]]
| k_param_gap n : n = name_node \/ n = instead m_name AMP -> made RParam [TNode PARAM [n; TErr m_param_type]]
| k_ret_none : made RRet []
| k_ret ty : made RType [ty] -> made RRet [TNode RET_TYPE [TTok COLON; ty]]
(* types and paths *)
| k_type_path p : made RPath [p] -> made RType [TNode PATH_TYPE [p]]
| k_type_ref ty : made RType [ty] -> made RType [TNode REF_TYPE [TTok AMP; ty]]
| k_type_ref_mut ty : made RType [ty] -> made RType [TNode REF_TYPE [TTok AMP; TTok MUT_KW; ty]]
| k_type_missing x : missing m_type type_stop x -> made RType [x]
| k_path_name : made RPath [TNode PATH [segment_node]]
| k_path p : made RPath [p] -> made RPath [TNode PATH [p; TTok COLON_COLON; segment_node]]
| k_path_missing p x : made RPath [p] -> missing m_ident item_stop x -> made RPath [TNode PATH [p; TTok COLON_COLON; x]]
(* statements *)
| k_block ss c : made RStmts ss -> token_or_message R_BRACE c -> made RBlock [TNode BLOCK_EXPR (TTok L_BRACE :: ss ++ [c])]
| k_stmts_nil : made RStmts []
| k_stmts_expr e ss : made (RExpr 1) [e] -> made RStmts ss -> made RStmts (TNode EXPR_STMT [e; TTok SEMICOLON] :: ss)
(* what is skipped ends at a semicolon or with the file *)
| k_stmts_open e ss : made (RExpr 1) [e] -> made RStmts ss -> (forall js, e = skipped m_expr js -> ss = []) ->
    made RStmts (TNode EXPR_STMT [e] :: ss)
| k_stmts_let l ss : made RLet l -> made RStmts ss -> made RStmts (TNode LET_STMT (TTok LET_KW :: l ++ [TTok SEMICOLON]) :: ss)
| k_stmts_let_open l ss : made RLet l -> made RStmts ss -> made RStmts (TNode LET_STMT (TTok LET_KW :: l) :: ss)
| k_let p a i : made RPattern [p] -> made RAnnot a -> made RInit i -> made RLet (p :: a ++ i)
| k_annot_none : made RAnnot []
| k_annot ty : made RType [ty] -> made RAnnot [TTok COLON; ty]
| k_init_none : made RInit []
| k_init e : made (RExpr 1) [e] -> made RInit [TTok EQ; e]
(* a block in the place of a field *)
| k_junk_block m js c : made RJunkStmts js -> c = [] \/ c = [TTok R_BRACE] -> made (RJunkBlock m) [TNode ERROR (TErr m :: TTok L_BRACE :: js ++ c)]
| k_junk_nil : made RJunkStmts []
| k_junk_semi f : made RJunkStmts f -> made RJunkStmts (TTok SEMICOLON :: f)
| k_junk_expr e c f : made (RExpr 1) [e] -> token_or_message SEMICOLON c -> made RJunkStmts f ->
    (forall js, e = skipped m_expr js -> c = TTok SEMICOLON \/ f = []) -> made RJunkStmts (TNode EXPR_STMT [e; c] :: f)
| k_junk_let l c f : made RLet l -> token_or_message SEMICOLON c -> made RJunkStmts f ->
    made RJunkStmts (TNode LET_STMT (TTok LET_KW :: l ++ [c]) :: f)
(* patterns *)
| k_pat_name : made RPattern [TNode IDENT_PAT [name_node]]
| k_pat_mut n : made (RName []) [n] -> made RPattern [TNode IDENT_PAT [TTok MUT_KW; n]]
| k_pat_wildcard : made RPattern [TNode WILDCARD_PAT [TTok WILDCARD]]
| k_pat_record fs c : made RFieldPats fs -> token_or_message R_BRACE c ->
    made RPattern [TNode RECORD_PAT [TNode PATH [segment_node]; TNode RECORD_PAT_FIELD_LIST (TTok L_BRACE :: fs ++ [c])]]
| k_pat_paren p c : made RPatterns [p] -> token_or_message R_PAREN c -> made RPattern [TNode PAREN_PAT [TTok L_PAREN; p; c]]
| k_pat_tuple ps c : made RPatterns ps -> length ps <> 1%nat -> token_or_message R_PAREN c ->
    made RPattern [TNode TUPLE_PAT (TTok L_PAREN :: ps ++ [c])]
| k_pat_missing x : missing m_pattern pattern_stop x -> made RPattern [x]
| k_patterns_nil : made RPatterns []
| k_patterns_stop : made RPatterns [TErr m_a_pattern]
| k_patterns_last x : made RPattern [x] -> made RPatterns [x]
| k_patterns x c f : made RPattern [x] -> token_or_message COMMA c -> made RPatterns f -> made RPatterns (x :: c :: f)
| k_field_pats_nil : made RFieldPats []
| k_field_pats_last x : made RFieldPat [x] -> made RFieldPats [x]
| k_field_pats x c f : made RFieldPat [x] -> token_or_message COMMA c -> made RFieldPats f -> made RFieldPats (x :: c :: f)
| k_field_pat p : made RPattern [p] -> made RFieldPat [TNode RECORD_PAT_FIELD [name_ref_node; TTok COLON; p]]
| k_field_pat_short n : made (RName []) [n] -> made RFieldPat [TNode RECORD_PAT_FIELD [TNode IDENT_PAT [n]]]
| k_field_pat_mut n : made (RName []) [n] -> made RFieldPat [TNode RECORD_PAT_FIELD [TNode IDENT_PAT [TTok MUT_KW; n]]]
| k_field_pat_junk x : made (RJunkBlock m_pat_ident) [x] -> made RFieldPat [x]
(* expressions *)
| k_expr_unary p u : made RUnary [u] -> made (RExpr p) [u]
| k_expr_bin p q l op r : prec op = Some q -> p <= q -> made (RExpr q) [l] -> (forall js, l <> skipped m_expr js) -> made (RExpr (q + 1)) [r] ->
    made (RExpr p) [TNode BIN_EXPR [l; TTok op; r]]
| k_unary op u : In op [STAR; BANG; MINUS] -> made RUnary [u] -> made RUnary [TNode PREFIX_EXPR [TTok op; u]]
| k_unary_postfix e : made RPostfix [e] -> made RUnary [e]
| k_unary_skip js : all_but [SEMICOLON; R_PAREN] js -> (forall k, hd_error js = Some k -> ~ In k expr_first) -> made RUnary [skipped m_expr js]
| k_postfix_atom e : made RAtom [e] -> made RPostfix [e]
| k_call e args c : made RPostfix [e] -> made RArgs args -> c = [] \/ c = [TTok R_PAREN] ->
    made RPostfix [TNode CALL_EXPR [e; TNode ARG_LIST (TTok L_PAREN :: args ++ c)]]
| k_dot e x : made RPostfix [e] -> x = name_ref_node \/ x = TErr m_field -> made RPostfix [TNode DOT_EXPR [e; TTok DOT; x]]
| k_literal k : In k [TRUE_KW; FALSE_KW; INTEGER_NUMBER; BYTE_STRING; HEX_STRING] -> made RAtom [TNode LITERAL [TTok k]]
| k_address_lit a : In a [TTok DIEM_ADDRESS; TTok IDENT] -> made RAtom [TNode LITERAL [TNode ADDRESS_LIT [TTok ATSIGN; a]]]
| k_address_lit_skip js : all_but operator_stop js -> hd_error js <> Some IDENT ->
    made RAtom [TNode LITERAL [TNode ADDRESS_LIT [TTok ATSIGN; skipped m_address_lit js]]]
| k_path_expr p : made RPath [p] -> made RAtom [TNode PATH_EXPR [p]]
| k_record p fs c : made RPath [p] -> made RFieldInits fs -> token_or_message R_BRACE c ->
    made RAtom [TNode RECORD_EXPR [p; TNode RECORD_EXPR_FIELD_LIST (TTok L_BRACE :: fs ++ [c])]]
| k_paren es c : made RParens es -> token_or_message R_PAREN c -> made RAtom [TNode PAREN_EXPR (TTok L_PAREN :: es ++ [c])]
| k_block_expr b : made RBlock [b] -> made RAtom [b]
| k_args_nil : made RArgs []
| k_args_last e : made (RExpr 1) [e] -> made RArgs [e]
| k_args e f : made (RExpr 1) [e] -> made RArgs f -> made RArgs (e :: TTok COMMA :: f)
| k_args_stop e : made (RExpr 1) [e] -> made RArgs [e; TErr (m_token COMMA)]
| k_parens_nil : made RParens []
| k_parens e f : made (RExpr 1) [e] -> made RParens f -> (forall js, e = skipped m_expr js -> f = []) -> made RParens (e :: f)
| k_field_inits_nil : made RFieldInits []
| k_field_inits_last x : made RFieldInit [x] -> made RFieldInits [x]
| k_field_inits x c f : made RFieldInit [x] -> token_or_message COMMA c -> made RFieldInits f -> made RFieldInits (x :: c :: f)
| k_field_init e : made (RExpr 1) [e] -> made RFieldInit [TNode RECORD_EXPR_FIELD [e]]
| k_field_init_named n e : n = name_ref_node \/ n = instead m_ident INTEGER_NUMBER -> made (RExpr 1) [e] ->
    made RFieldInit [TNode RECORD_EXPR_FIELD [n; TTok COLON; e]]
| k_field_init_wrong k : ~ In k [IDENT; INTEGER_NUMBER; EOF; L_BRACE; R_BRACE] -> made RFieldInit [instead m_ident k]
| k_field_init_junk x : made (RJunkBlock m_a_field) [x] -> made RFieldInit [x].

(** ** What follows for the nodes of a tree *)
(** a node with kind [k] and parts [cs], anywhere in [f] *)
Inductive within (k : kind) (cs : list tree) : list tree -> Prop :=
| within_here f : In (TNode k cs) f -> within k cs f
| within_below k' cs' f : In (TNode k' cs') f -> within k cs cs' -> within k cs f.

(** all there is to say that a part is missing or wrong *)
Definition all_messages : list text :=
  [m_name; m_type; m_param_type; m_params; m_block; m_body; m_modules; m_pattern; m_expr; m_address_lit; m_address; m_field; m_semi;
   m_ident; m_value_param; m_type_param; m_a_pattern; m_pat_ident; m_a_field; m_field_decl; m_item]
  ++ map m_token [R_BRACE; R_PAREN; GT; COMMA; COLON; SEMICOLON].

(** at most one node, of one of the kinds [ks] *)
Definition at_most_one (ks : list kind) (f : list tree) : Prop :=
  f = [] \/ exists k cs, In k ks /\ f = [TNode k cs].
(** an operation: its operator stands between two operands; an operation that is
    an operand binds more tightly, on the left as tightly *)
Definition operation (cs : list tree) : Prop :=
  exists l op r q, cs = [l; TTok op; r] /\ prec op = Some q /\
    (forall l' op' r' q', l = TNode BIN_EXPR [l'; TTok op'; r'] -> prec op' = Some q' -> q <= q') /\
    (forall l' op' r' q', r = TNode BIN_EXPR [l'; TTok op'; r'] -> prec op' = Some q' -> q < q').
(** a function: [fun], and then in this order at most one name, list of parameters,
    type of the result and block *)
Definition function_parts (cs : list tree) : Prop :=
  exists n ps r b, cs = TTok FUN_KW :: n ++ ps ++ r ++ b /\ at_most_one [NAME; ERROR] n /\ at_most_one [PARAM_LIST] ps /\
    at_most_one [RET_TYPE] r /\ at_most_one [BLOCK_EXPR] b.
(** a struct: [struct], at most one name, list of type parameters, and list of fields or semicolon *)
Definition struct_parts (cs : list tree) : Prop :=
  exists n g b, cs = TTok STRUCT_KW :: n ++ g ++ b /\ at_most_one [NAME; ERROR] n /\ at_most_one [GENERIC_PARAM_LIST] g /\
    (at_most_one [RECORD_FIELD_LIST] b \/ b = [TTok SEMICOLON]).
(** a module: [module], an address or not, at most one name, and items or a semicolon *)
Definition module_parts (cs : list tree) : Prop :=
  exists a n b, cs = TTok MODULE_KW :: a ++ n ++ b /\ (a = [] \/ exists x, a = [TNode ADDRESS_IDENT x; TTok COLON_COLON]) /\
    at_most_one [NAME; ERROR] n /\ (at_most_one [ITEM_LIST] b \/ b = [TTok SEMICOLON]).
(** an [ERROR] node holds tokens that were passed over, or a block in braces *)
Definition error_parts (cs : list tree) : Prop :=
  (exists js, cs = map TTok js) \/ exists ss, cs = TTok L_BRACE :: ss.
