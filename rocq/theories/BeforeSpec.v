(** What stands in front of some place of a file, and how a tree can begin with
    it.  Written from the grammar of SyntaxSpec.v, not from the parser. *)
From Verif Require Import Base Kinds LexSpec TreeSpec SyntaxSpec UnknownSpec.

(** The constructs that are open at a place, from the outside in: the kind of
    each, and its parts that are complete. *)
Definition opened := list (kind * list tree).
Definition opened_leaves (o : opened) : list kind := flat_map (fun p => flat_map leaves (snd p)) o.

(** [module M] or [module 0x1::M] *)
Inductive module_name : list tree -> Prop :=
| mn_name : module_name [TTok MODULE_KW; name_node]
| mn_at a : gen AddressName [a] ->
    module_name [TTok MODULE_KW; TNode ADDRESS_IDENT [a]; TTok COLON_COLON; name_node].

(** inside a module *)
Inductive in_module : opened -> Prop :=
| im h is : module_name h -> gen Items is -> in_module [(MODULE_DEF, h); (ITEM_LIST, TTok L_BRACE :: is)].
(** between the items of a module or script *)
Inductive in_items : opened -> Prop :=
| ii_module o : in_module o -> in_items o
| ii_script is : gen Items is -> in_items [(SCRIPT_DEF, [TTok SCRIPT_KW]); (ITEM_LIST, TTok L_BRACE :: is)]
| ii_address a ms o : gen AddressName [a] -> gen Modules ms -> in_module o ->
    in_items ((ADDRESS_DEF, [TTok ADDRESS_KW; TNode ADDRESS_IDENT [a]]) :: (ADDRESS_ITEM_LIST, TTok L_BRACE :: ms) :: o).
(** between the items of a file, the modules of an address, the items of a
    module or script, the statements of a function *)
Inductive place : opened -> Prop :=
| p_file : place []
| p_address a ms : gen AddressName [a] -> gen Modules ms ->
    place [(ADDRESS_DEF, [TTok ADDRESS_KW; TNode ADDRESS_IDENT [a]]); (ADDRESS_ITEM_LIST, TTok L_BRACE :: ms)]
| p_items o : in_items o -> place o
| p_function o ps r ss : in_items o -> gen (Commas Param) ps -> gen RetType r -> finished ss ->
    place (o ++ [(FUNCTION_DEF, TTok FUN_KW :: name_node :: TNode PARAM_LIST (TTok L_PAREN :: ps ++ [TTok R_PAREN]) :: r);
                 (BLOCK_EXPR, TTok L_BRACE :: ss)]).

(** [begins o f]: the trees [f] begin with what is open, and go on anyhow *)
Inductive begins : opened -> list tree -> Prop :=
| b_here f : begins [] f
| b_inside k c o f more : begins o f -> begins ((k, c) :: o) (TNode k (c ++ f) :: more).
