(** What a program of the core language may begin with, and what may come next.
    Written from the grammar of SyntaxSpec.v, not from the parser. *)
From Verif Require Import Base Kinds LexSpec TreeSpec SyntaxSpec.

Definition address_leaf (k : kind) : Prop := k = DIEM_ADDRESS \/ k = IDENT.

(** [module M {] or [module 0x1::M {] *)
Inductive module_head : list kind -> Prop :=
| mh_name : module_head [MODULE_KW; IDENT; L_BRACE]
| mh_at a : address_leaf a -> module_head [MODULE_KW; a; COLON_COLON; IDENT; L_BRACE].

(** [beginning b ks]: [b] are the tokens of complete items, perhaps behind an
    opened module, script or address; [ks] are the kinds of tokens the grammar
    has a use for at this place.  (A stray [;] is tolerated among the items of a module.) *)
Inductive beginning : list kind -> list kind -> Prop :=
| b_file f : gen File f -> beginning (flat_map leaves f) [MODULE_KW; SCRIPT_KW; ADDRESS_KW]
| b_address f a ms : gen File f -> address_leaf a -> gen Modules ms ->
    beginning (flat_map leaves f ++ ADDRESS_KW :: a :: L_BRACE :: flat_map leaves ms) [MODULE_KW; R_BRACE]
| b_module b ks h is : beginning b ks -> In MODULE_KW ks -> module_head h -> gen Items is ->
    beginning (b ++ h ++ flat_map leaves is) [FUN_KW; STRUCT_KW; R_BRACE; SEMICOLON]
| b_script f is : gen File f -> gen Items is ->
    beginning (flat_map leaves f ++ SCRIPT_KW :: L_BRACE :: flat_map leaves is) [FUN_KW; STRUCT_KW; R_BRACE; SEMICOLON].

(** The program [ws] begins well and goes on with a token of kind [k] the
    grammar has no use for at that place. *)
Definition unknown_item (ws : list (kind * text)) (n : nat) (k : kind) : Prop :=
  exists pre allowed a w b, proper ws = a ++ (k, w) :: b /\ length a = n /\
    Forall2 stands_for pre a /\ beginning pre allowed /\ ~ In k allowed.

(** statements, each with its semicolon *)
Inductive finished : list tree -> Prop :=
| f_nil : finished []
| f_expr e ss : gen (Expr 1) [e] -> finished ss -> finished (TNode EXPR_STMT [e; TTok SEMICOLON] :: ss)
| f_let l ss : gen Let_ l -> finished ss -> finished (TNode LET_STMT (l ++ [TTok SEMICOLON]) :: ss).

(** [inside b]: [b] are the tokens up to some place between the statements of a
    function or of a block in it *)
Inductive inside : list kind -> Prop :=
| i_fun b ks ps r ss : beginning b ks -> In FUN_KW ks -> gen (Commas Param) ps -> gen RetType r -> finished ss ->
    inside (b ++ [FUN_KW; IDENT; L_PAREN] ++ flat_map leaves ps ++ [R_PAREN] ++ flat_map leaves r ++ [L_BRACE] ++ flat_map leaves ss)
| i_block b ss : inside b -> finished ss -> inside (b ++ L_BRACE :: flat_map leaves ss).

(** the kinds of tokens the grammar lets a statement begin with (or a block end) *)
Definition statement_first : list kind :=
  [LET_KW; TRUE_KW; FALSE_KW; INTEGER_NUMBER; BYTE_STRING; HEX_STRING; ATSIGN; IDENT; L_PAREN; L_BRACE; STAR; BANG; MINUS; R_BRACE].

(** The program [ws] goes well up to a place between statements, after [n]
    tokens.  What follows there starts no statement, and a closing parenthesis
    comes before the next semicolon. *)
Definition stray_parenthesis (ws : list (kind * text)) (n : nat) : Prop :=
  exists pre a junk w b, proper ws = a ++ junk ++ (R_PAREN, w) :: b /\ length a = n /\
    Forall2 stands_for pre a /\ inside pre /\
    (forall p, hd_error junk = Some p -> ~ In (fst p) statement_first) /\
    Forall (fun p => fst p <> SEMICOLON /\ fst p <> R_PAREN) junk.
