(** Specification of the core of the Move language that the parser supports:
    a grammar in the style of BNF, independent of the parser.  A production
    gives the syntax tree of a phrase; the phrase itself is the row of leaves
    of the tree. *)
From Coq Require Import String.
From Verif Require Import Base Kinds LexSpec TreeSpec.
Local Open Scope N_scope.

Inductive nt :=
(* files *)
| File | TopItem | Modules | Module | ModuleBody | AddressName | Items | Item
(* items *)
| Struct | StructBody | Field | Generics | TypeParam | Bounds | Function | Param | RetType
| Type_ | Path_
(* statements *)
| Block | Stmts | Let_ | TypeAnnot | Init | Pattern_ | FieldPat
(* expressions: [Expr p] only uses operators that bind at least as tightly as [p] *)
| Expr (p : N) | Unary | Postfix | Atom | FieldInit
(* [Commas x]: any number of [x] separated by commas, a comma after the last one being optional *)
| Commas (x : nt).

Definition name_node : tree := TNode NAME [TTok IDENT].
Definition name_ref_node : tree := TNode NAME_REF [TTok IDENT].
Definition segment_node : tree := TNode PATH_SEGMENT [name_ref_node].

Inductive gen : nt -> list tree -> Prop :=
(* file ::= (module | script | address)* *)
| g_file_nil : gen File []
| g_file x f : gen TopItem [x] -> gen File f -> gen File (x :: f)
| g_top_module x : gen Module [x] -> gen TopItem [x]
(* script { items } *)
| g_script is : gen Items is ->
    gen TopItem [TNode SCRIPT_DEF [TTok SCRIPT_KW; TNode ITEM_LIST (TTok L_BRACE :: is ++ [TTok R_BRACE])]]
(* address 0x1 { modules } *)
| g_address a ms : gen AddressName [a] -> gen Modules ms ->
    gen TopItem [TNode ADDRESS_DEF [TTok ADDRESS_KW; TNode ADDRESS_IDENT [a];
                   TNode ADDRESS_ITEM_LIST (TTok L_BRACE :: ms ++ [TTok R_BRACE])]]
| g_modules_nil : gen Modules []
| g_modules x f : gen Module [x] -> gen Modules f -> gen Modules (x :: f)
(* module M body *)
| g_module b : gen ModuleBody b -> gen Module [TNode MODULE_DEF (TTok MODULE_KW :: name_node :: b)]
(* module 0x1::M body *)
| g_module_at a b : gen AddressName [a] -> gen ModuleBody b ->
    gen Module [TNode MODULE_DEF (TTok MODULE_KW :: TNode ADDRESS_IDENT [a] :: TTok COLON_COLON :: name_node :: b)]
| g_module_items is : gen Items is ->
    gen ModuleBody [TNode ITEM_LIST (TTok L_BRACE :: is ++ [TTok R_BRACE])]
| g_module_semi : gen ModuleBody [TTok SEMICOLON]
(* a hexadecimal number or a name *)
| g_address_hex : gen AddressName [TTok DIEM_ADDRESS]
| g_address_ident : gen AddressName [TTok IDENT]
| g_items_nil : gen Items []
| g_items x f : gen Item [x] -> gen Items f -> gen Items (x :: f)
| g_item_fun x : gen Function [x] -> gen Item [x]
| g_item_struct x : gen Struct [x] -> gen Item [x]
(* struct S generics body *)
| g_struct g b : gen Generics g -> gen StructBody b ->
    gen Struct [TNode STRUCT (TTok STRUCT_KW :: name_node :: g ++ b)]
| g_struct_fields fs : gen (Commas Field) fs ->
    gen StructBody [TNode RECORD_FIELD_LIST (TTok L_BRACE :: fs ++ [TTok R_BRACE])]
| g_struct_semi : gen StructBody [TTok SEMICOLON]
| g_field ty : gen Type_ [ty] -> gen Field [TNode RECORD_FIELD [name_node; TTok COLON; ty]]
| g_generics_none : gen Generics []
| g_generics ps : gen (Commas TypeParam) ps ->
    gen Generics [TNode GENERIC_PARAM_LIST (TTok LT :: ps ++ [TTok GT])]
| g_type_param : gen TypeParam [TNode TYPE_PARAM [name_node]]
| g_type_param_bounds bs : gen Bounds bs ->
    gen TypeParam [TNode TYPE_PARAM [name_node; TTok COLON; TNode TYPE_BOUND_LIST bs]]
| g_bounds_one : gen Bounds [TNode TYPE_BOUND [name_node]]
| g_bounds_more bs : gen Bounds bs -> gen Bounds (TNode TYPE_BOUND [name_node] :: TTok PLUS :: bs)
(* fun f(params) ret block *)
| g_function ps r b : gen (Commas Param) ps -> gen RetType r -> gen Block [b] ->
    gen Function [TNode FUNCTION_DEF (TTok FUN_KW :: name_node ::
      TNode PARAM_LIST (TTok L_PAREN :: ps ++ [TTok R_PAREN]) :: r ++ [b])]
| g_param ty : gen Type_ [ty] -> gen Param [TNode PARAM [name_node; TTok COLON; ty]]
| g_ret_none : gen RetType []
| g_ret ty : gen Type_ [ty] -> gen RetType [TNode RET_TYPE [TTok COLON; ty]]
| g_type_path p : gen Path_ [p] -> gen Type_ [TNode PATH_TYPE [p]]
| g_type_ref ty : gen Type_ [ty] -> gen Type_ [TNode REF_TYPE [TTok AMP; ty]]
| g_type_ref_mut ty : gen Type_ [ty] -> gen Type_ [TNode REF_TYPE [TTok AMP; TTok MUT_KW; ty]]
(* a::b::c *)
| g_path_name : gen Path_ [TNode PATH [segment_node]]
| g_path p : gen Path_ [p] -> gen Path_ [TNode PATH [p; TTok COLON_COLON; segment_node]]
(* { stmts } *)
| g_block ss : gen Stmts ss -> gen Block [TNode BLOCK_EXPR (TTok L_BRACE :: ss ++ [TTok R_BRACE])]
| g_stmts_nil : gen Stmts []
| g_stmts_expr e ss : gen (Expr 1) [e] -> gen Stmts ss ->
    gen Stmts (TNode EXPR_STMT [e; TTok SEMICOLON] :: ss)
| g_stmts_last e : gen (Expr 1) [e] -> gen Stmts [TNode EXPR_STMT [e]]
| g_stmts_let l ss : gen Let_ l -> gen Stmts ss ->
    gen Stmts (TNode LET_STMT (l ++ [TTok SEMICOLON]) :: ss)
| g_let p a i : gen Pattern_ [p] -> gen TypeAnnot a -> gen Init i ->
    gen Let_ (TTok LET_KW :: p :: a ++ i)
| g_annot_none : gen TypeAnnot []
| g_annot ty : gen Type_ [ty] -> gen TypeAnnot [TTok COLON; ty]
| g_init_none : gen Init []
| g_init e : gen (Expr 1) [e] -> gen Init [TTok EQ; e]
(* patterns *)
| g_pat_name : gen Pattern_ [TNode IDENT_PAT [name_node]]
| g_pat_mut : gen Pattern_ [TNode IDENT_PAT [TTok MUT_KW; name_node]]
| g_pat_record fs : gen (Commas FieldPat) fs ->
    gen Pattern_ [TNode RECORD_PAT [TNode PATH [segment_node];
                   TNode RECORD_PAT_FIELD_LIST (TTok L_BRACE :: fs ++ [TTok R_BRACE])]]
| g_pat_paren p : gen Pattern_ [p] -> gen Pattern_ [TNode PAREN_PAT [TTok L_PAREN; p; TTok R_PAREN]]
| g_pat_tuple ps : gen (Commas Pattern_) ps -> length ps <> 1%nat ->
    gen Pattern_ [TNode TUPLE_PAT (TTok L_PAREN :: ps ++ [TTok R_PAREN])]
| g_field_pat_short : gen FieldPat [TNode RECORD_PAT_FIELD [TNode IDENT_PAT [name_node]]]
| g_field_pat p : gen Pattern_ [p] -> gen FieldPat [TNode RECORD_PAT_FIELD [name_ref_node; TTok COLON; p]]
(* expressions *)
| g_expr_unary p u : gen Unary [u] -> gen (Expr p) [u]
| g_expr_bin p q l op r : prec op = Some q -> p <= q -> gen (Expr q) [l] -> gen (Expr (q + 1)) [r] ->
    gen (Expr p) [TNode BIN_EXPR [l; TTok op; r]]
| g_unary op u : In op [STAR; BANG; MINUS] -> gen Unary [u] -> gen Unary [TNode PREFIX_EXPR [TTok op; u]]
| g_unary_postfix e : gen Postfix [e] -> gen Unary [e]
| g_postfix_atom e : gen Atom [e] -> gen Postfix [e]
| g_call e args : gen Postfix [e] -> gen (Commas (Expr 1)) args ->
    gen Postfix [TNode CALL_EXPR [e; TNode ARG_LIST (TTok L_PAREN :: args ++ [TTok R_PAREN])]]
| g_dot e : gen Postfix [e] -> gen Postfix [TNode DOT_EXPR [e; TTok DOT; name_ref_node]]
| g_literal k : In k [TRUE_KW; FALSE_KW; INTEGER_NUMBER; BYTE_STRING] -> gen Atom [TNode LITERAL [TTok k]]
| g_address_lit a : gen AddressName [a] -> gen Atom [TNode LITERAL [TNode ADDRESS_LIT [TTok ATSIGN; a]]]
| g_path_expr p : gen Path_ [p] -> gen Atom [TNode PATH_EXPR [p]]
| g_record p fs : gen Path_ [p] -> gen (Commas FieldInit) fs ->
    gen Atom [TNode RECORD_EXPR [p; TNode RECORD_EXPR_FIELD_LIST (TTok L_BRACE :: fs ++ [TTok R_BRACE])]]
| g_paren e : gen (Expr 1) [e] -> gen Atom [TNode PAREN_EXPR [TTok L_PAREN; e; TTok R_PAREN]]
| g_unit : gen Atom [TNode PAREN_EXPR [TTok L_PAREN; TTok R_PAREN]]
| g_block_expr b : gen Block [b] -> gen Atom [b]
| g_field_init_short : gen FieldInit [TNode RECORD_EXPR_FIELD [TNode PATH_EXPR [TNode PATH [segment_node]]]]
| g_field_init e : gen (Expr 1) [e] -> gen FieldInit [TNode RECORD_EXPR_FIELD [name_ref_node; TTok COLON; e]]
(* comma-separated lists *)
| g_commas_nil x : gen (Commas x) []
| g_commas_last x e : gen x [e] -> gen (Commas x) [e]
| g_commas_more x e r : gen x [e] -> gen (Commas x) r -> gen (Commas x) (e :: TTok COMMA :: r).

(** A leaf of the tree stands for a token of the text: same kind; an address
    is a number written in hexadecimal. *)
Definition stands_for (leaf : kind) (tok : kind * text) : Prop :=
  match leaf with
  | DIEM_ADDRESS => fst tok = INTEGER_NUMBER /\ exists r, snd tok = `"0x" ++ r
  | _ => fst tok = leaf
  end.

(** The tokens besides blanks and comments. *)
Definition proper (ws : list (kind * text)) : list (kind * text) :=
  filter (fun p => negb (is_trivia (fst p))) ws.

(** ** Layout the parser cannot cope with *)
(** a comment between a name or number and the brace or colon after it *)
Definition comment_in_the_way (ws : list (kind * text)) : Prop :=
  exists a p b w c q d, ws = a ++ p :: b ++ (COMMENT, w) :: c ++ q :: d /\
    (fst p = IDENT \/ fst p = INTEGER_NUMBER) /\
    Forall (fun x => is_trivia (fst x) = true) b /\ Forall (fun x => is_trivia (fst x) = true) c /\
    (fst q = L_BRACE \/ fst q = COLON \/ fst q = COLON_COLON).
(** a brace or star glued to the end of a qualified name *)
Definition glued (ws : list (kind * text)) : Prop :=
  exists a p q r b, ws = a ++ p :: q :: r :: b /\ fst p = COLON_COLON /\ fst q = IDENT /\
    (fst r = L_BRACE \/ fst r = STAR).

(** [t] is a phrase of the language with tree [f], in a layout the parser copes with. *)
Record core_program (t : text) (f : list tree) : Prop := {
  cp_tree : gen File f;
  cp_words : exists ws, token_stream t ws /\ Forall2 stands_for (flat_map leaves f) (proper ws) /\
    ~ comment_in_the_way ws /\ ~ glued ws
}.
