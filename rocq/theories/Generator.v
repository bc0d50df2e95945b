(** Model of crates/generate_ast: [lower], which turns the grammar move.ungram into the
    structs and enums of the typed tree, the accessors that are written for them, and
    the table of kinds.

    The generated Rust text is not modelled: a struct is its list of fields and a field
    is given the meaning of the method body that gen_nodes.rs writes for it.  The
    ungrammar crate is outside the repository: a grammar is given as the value its
    parser returns, with node and token ids replaced by their names. *)
From Coq Require Import String.
From Verif Require Import Base Lexer Kinds Stdx Sink Ast.
Open Scope N_scope.

(** ungrammar: [Rule]; the ids of nodes and tokens are replaced by names *)
Inductive rule :=
| Labeled (label : text) (r : rule)
| NodeR (n : text)
| TokenR (t : text)
| SeqR (rs : list rule)
| AltR (rs : list rule)
| OptR (r : rule)
| RepR (r : rule).
(** ungrammar: [Grammar]; its nodes in the order of [Grammar::iter] *)
Definition grammar : Type := list (text * rule).

(** generate_ast/src/ast.rs:36-46 [GrammarNodeField], [Cardinality] *)
Inductive field :=
| FToken (t : text)
| FNode (name ty : text) (many : bool).
(** ast.rs:28-34 [GrammarNode] and 48-54 [GrammarEnum], without the (always empty) doc *)
Record gnode := GN { gn_name : text; gn_traits : list text; gn_fields : list field }.
Record genum := GE { ge_name : text; ge_traits : list text; ge_variants : list text }.
(** ast.rs:21-26 [GrammarAST] *)
Record gast := GA { ga_tokens : list text; ga_nodes : list gnode; ga_enums : list genum }.

Section Lists.
  Context {A B : Type} (f : A -> res (list B)).
  (** a loop whose body pushes to one vector *)
  Fixpoint push_all (l : list A) : res (list B) :=
    match l with
    | [] => Ok []
    | x :: r => let! a := f x in let! b := push_all r in Ok (a ++ b)
    end.
End Lists.
(** derived PartialEq of [Rule] *)
Fixpoint rule_eqb (a b : rule) {struct a} : bool :=
  match a, b with
  | Labeled l r, Labeled l' r' => text_eqb l l' && rule_eqb r r'
  | NodeR n, NodeR n' => text_eqb n n'
  | TokenR t, TokenR t' => text_eqb t t'
  | SeqR rs, SeqR rs' | AltR rs, AltR rs' =>
      (fix all (l l' : list rule) : bool :=
         match l, l' with
         | [], [] => true
         | x :: l, y :: l' => rule_eqb x y && all l l'
         | _, _ => false
         end) rs rs'
  | OptR r, OptR r' => rule_eqb r r'
  | RepR r, RepR r' => rule_eqb r r'
  | _, _ => false
  end.
(** derived PartialEq of [GrammarNodeField] *)
Definition field_eqb (a b : field) : bool :=
  match a, b with
  | FToken t, FToken t' => text_eqb t t'
  | FNode n ty m, FNode n' ty' m' => text_eqb n n' && text_eqb ty ty' && Bool.eqb m m'
  | _, _ => false
  end.

(** proc_macro2: [Ident::new], reached through [format_ident!], panics unless the string
    is an identifier.  Simplification: ASCII identifiers only. *)
Definition is_letter_ (c : char) : bool := is_ascii_uppercase c || is_ascii_lowercase c || (c =? 95).
Definition is_digit_ (c : char) : bool := (48 <=? c) && (c <=? 57).
Definition is_ident (t : text) : bool :=
  match t with
  | [] => false
  | c :: r => is_letter_ c && forallb (fun c => is_letter_ c || is_digit_ c) r
  end.
Definition format_ident (t : text) : res text := if is_ident t then Ok t else Panic PAssert.

(** generate_ast/src/syntax_kind.rs:7-14 [SymbolKindsSrc] *)
Record kinds_src := KindsSrc {
  ks_punct : list (text * text); ks_keywords : list text; ks_literals : list text;
  ks_tokens : list text; ks_nodes : list text }.
(** syntax_kind.rs:16-113 [KINDS_SRC] *)
Definition KINDS_SRC : kinds_src := KindsSrc
  [(`":", `"COLON"); (`"::", `"COLON_COLON"); (`";", `"SEMICOLON"); (`",", `"COMMA");
   (`"(", `"L_PAREN"); (`")", `"R_PAREN"); (`"{", `"L_BRACE"); (`"}", `"R_BRACE");
   (`"[", `"L_BRACK"); (`"]", `"R_BRACK"); (`"+", `"PLUS"); (`"-", `"MINUS");
   (`"*", `"STAR"); (`"/", `"SLASH"); (`"%", `"MOD"); (`"#", `"NUMSIGN");
   (`"@", `"ATSIGN"); (`".", `"DOT"); (`"..", `"DOTDOT"); (`"&", `"AMP");
   (`"&&", `"AMP_AMP"); (`"&mut", `"AMP_MUT"); (`"^", `"CARET"); (`"|", `"PIPE");
   (`"||", `"PIPE_PIPE"); (`"!", `"BANG"); (`"!=", `"BANG_EQ"); (`"=", `"EQ");
   (`"==", `"EQ_EQ"); (`"==>", `"EQ_EQ_GT"); (`">", `"GT"); (`">>", `"GT_GT");
   (`">=", `"GT_EQ"); (`"<", `"LT"); (`"<<", `"LT_LT"); (`"<=", `"LT_EQ");
   (`"<==>", `"LT_EQ_EQ_GT"); (`"_", `"WILDCARD")]
  [`"struct"; `"script"; `"module"; `"const"; `"use"; `"as"; `"let"; `"mut"; `"return"; `"fun"; `"true";
   `"false"; `"move"; `"while"; `"if"; `"else"; `"break"; `"continue"; `"address"]
  [`"INTEGER_NUMBER"; `"BYTE_STRING"; `"HEX_STRING"]
  [`"ERROR"; `"IDENT"; `"WHITESPACE"; `"COMMENT"; `"DIEM_ADDRESS"]
  [`"SOURCE_FILE"; `"ADDRESS_DEF"; `"ADDRESS_ITEM_LIST"; `"MODULE_DEF"; `"ADDRESS_IDENT"; `"SCRIPT_DEF";
   `"FUNCTION_DEF"; `"ITEM_LIST"; `"NAME_REF"; `"STRUCT"; `"RECORD_FIELD_LIST"; `"RECORD_FIELD";
   `"GENERIC_PARAM_LIST"; `"TYPE_PARAM"; `"TYPE_BOUND_LIST"; `"TYPE_BOUND"; `"PARAM_LIST"; `"PARAM";
   `"RET_TYPE"; `"EXPR"; `"BLOCK_EXPR"; `"DOT_EXPR"; `"CALL_EXPR"; `"ARG_LIST"; `"RECORD_EXPR";
   `"RECORD_EXPR_FIELD_LIST"; `"RECORD_EXPR_FIELD"; `"LITERAL"; `"PATH"; `"PATH_SEGMENT"; `"NAME";
   `"BIN_EXPR"; `"PREFIX_EXPR"; `"PATH_EXPR"; `"PAREN_EXPR"; `"EXPR_STMT"; `"LET_STMT"; `"REF_TYPE";
   `"PATH_TYPE"; `"PAREN_PAT"; `"TUPLE_PAT"; `"RECORD_PAT"; `"RECORD_PAT_FIELD_LIST"; `"RECORD_PAT_FIELD";
   `"PATH_PAT"; `"WILDCARD_PAT"; `"REST_PAT"; `"IDENT_PAT"; `"ADDRESS_LIT"].

(** core: [str::trim_matches] of one character, and [str::contains] of a string *)
Definition cQuote : char := 39.
Fixpoint trim_start_char (c : char) (t : text) : text :=
  match t with x :: r => if x =? c then trim_start_char c r else t | [] => [] end.
Definition trim_matches (c : char) (t : text) : text :=
  rev (trim_start_char c (rev (trim_start_char c t))).
Definition contains (t p : text) : bool := match find_str p t with Some _ => true | None => false end.

(** utils.rs:3-5 [pluralize] *)
Definition pluralize (s : text) : text := s ++ `"s".
Definition under_token (s : text) : text := s ++ `"_token".

(** ast.rs:68-88 [method_name] *)
Definition method_name (f : field) : res text :=
  match f with
  | FToken name =>
      match alookup text_eqb (trim_matches cQuote name) (ks_punct KINDS_SRC) with
      | Some token_name => format_ident (under_token (map to_ascii_lowercase token_name))
      | None => format_ident (under_token name)
      end
  | FNode name _ _ => if text_eqb name (`"type") then format_ident (`"ty") else format_ident name
  end.
(** ast.rs:89-94 [ty] *)
Definition field_ty (f : field) : res text :=
  match f with FToken _ => format_ident (`"SyntaxToken") | FNode _ ty _ => format_ident ty end.

(** ast.rs:132-146 [lower_enum] *)
Fixpoint enum_variants (alternatives : list rule) : option (list text) :=
  match alternatives with
  | [] => Some []
  | NodeR n :: r => option_map (cons n) (enum_variants r)
  | TokenR t :: r => if text_eqb t (`";") then enum_variants r else None
  | _ => None
  end.
Definition lower_enum (r : rule) : option (list text) :=
  match r with AltR alternatives => enum_variants alternatives | _ => None end.

(** ast.rs:213-243 [lower_comma_list]: the node of the list *)
Definition comma_list (r : rule) : option text :=
  match r with
  | SeqR [NodeR node; RepR (SeqR [comma; NodeR n]); OptR trailing_comma] =>
      if rule_eqb comma trailing_comma && text_eqb n node then Some node else None
  | _ => None
  end.
Definition or_label (label : option text) (d : text) : text := match label with Some l => l | None => d end.
(** ast.rs:168-174: the tokens that get no accessor, and the quotes around brackets *)
Definition no_accessor (t : text) : bool :=
  text_eqb t (`"integer_number") || text_eqb t (`"hex_string") || text_eqb t (`"byte_string").
Definition quote_brackets (t : text) : text :=
  if contains (`"[]{}()") t then cQuote :: t ++ [cQuote] else t.
(** ast.rs:148-210 [lower_rule]; the fields pushed to [acc] *)
Fixpoint lower_rule (label : option text) (r : rule) {struct r} : res (list field) :=
  match comma_list r with
  | Some ty => Ok [FNode (or_label label (pluralize (to_lower_snake_case ty))) ty true]
  | None =>
      match r with
      | NodeR ty => Ok [FNode (or_label label (to_lower_snake_case ty)) ty false]
      | TokenR name =>
          let! _ := assert_ (match label with None => true | Some _ => false end) in
          Ok (if no_accessor name then [] else [FToken (quote_brackets name)])
      | RepR (NodeR ty) => Ok [FNode (or_label label (pluralize (to_lower_snake_case ty))) ty true]
      | RepR _ => Panic PUnreachable
      | Labeled l r =>
          let! _ := assert_ (match label with None => true | Some _ => false end) in
          lower_rule (Some l) r
      | SeqR rs | AltR rs => push_all (lower_rule label) rs
      | OptR r => lower_rule label r
      end
  end.

(** ast.rs:109-128, the loop of [lower] *)
Fixpoint lower_nodes (g : grammar) : res (list gnode * list genum) :=
  match g with
  | [] => Ok ([], [])
  | (name, r) :: g =>
      match lower_enum r with
      | Some variants => let! (nodes, enums) := lower_nodes g in Ok (nodes, GE name [] variants :: enums)
      | None =>
          let! fields := lower_rule None r in
          let! (nodes, enums) := lower_nodes g in Ok (GN name [] fields :: nodes, enums)
      end
  end.

(** ast.rs:246-262 [deduplicate_fields] for one node: [kept] are the fields before index [i] *)
Fixpoint dedup (kept rest : list field) : list field :=
  match rest with
  | [] => kept
  | f :: rest => if existsb (field_eqb f) kept then dedup kept rest else dedup (kept ++ [f]) rest
  end.

(** ast.rs:362-368 [remove_field]: the indices are given by the test that collected them *)
Fixpoint select (test : field -> res bool) (fields : list field) : res (list field * list field) :=
  match fields with
  | [] => Ok ([], [])
  | f :: r => let! b := test f in let! (yes, no) := select test r in Ok (if b then (f :: yes, no) else (yes, f :: no))
  end.
Definition mem (t : text) (l : list text) : bool := existsb (text_eqb t) l.

(** ast.rs:264-288 [extract_enums], the inner loop for one node *)
Definition extract_enum (fields : list field) (enm : genum) : res (list field) :=
  let! (chosen, others) := select (fun f => let! ty := field_ty f in Ok (mem ty (ge_variants enm))) fields in
  if (length chosen =? length (ge_variants enm))%nat
  then Ok (others ++ [FNode (to_lower_snake_case (ge_name enm)) (ge_name enm) false])
  else Ok fields.
Fixpoint extract_enums (enums : list genum) (fields : list field) : res (list field) :=
  match enums with
  | [] => Ok fields
  | e :: enums => let! fields := extract_enum fields e in extract_enums enums fields
  end.

(** ast.rs:290-309 [extract_struct_traits] *)
Definition owner_traits : list (text * list text) :=
  [(`"AttrsOwner", [`"attrs"]);
   (`"NameOwner", [`"name"]);
   (`"VisibilityOwner", [`"visibility"]);
   (`"GenericParamsOwner", [`"generic_param_list"; `"where_clause"]);
   (`"TypeBoundsOwner", [`"type_bound_list"; `"colon_token"]);
   (`"ModuleItemOwner", [`"items"]);
   (`"LoopBodyOwner", [`"label"; `"loop_body"]);
   (`"ArgListOwner", [`"arg_list"])].
(** ast.rs:311-324 [extract_struct_trait] *)
Definition extract_struct_trait (n : gnode) (t : text * list text) : res gnode :=
  let '(trait_name, methods) := t in
  let! (chosen, others) := select (fun f => let! m := method_name f in Ok (mem m methods)) (gn_fields n) in
  Ok (if (length chosen =? length methods)%nat
      then GN (gn_name n) (gn_traits n ++ [trait_name]) others
      else n).
Fixpoint extract_struct_traits (ts : list (text * list text)) (n : gnode) : res gnode :=
  match ts with
  | [] => Ok n
  | t :: ts => let! n := extract_struct_trait n t in extract_struct_traits ts n
  end.

(** ast.rs:326-350 [extract_enum_traits].  Simplification: the traits keep the order of
    the first variant instead of being sorted (a [BTreeSet] is turned into a vector). *)
Definition find_node (nodes : list gnode) (v : text) : option gnode :=
  find (fun n => text_eqb (gn_name n) v) nodes.
Definition extract_enum_traits (nodes : list gnode) (e : genum) : res genum :=
  if text_eqb (ge_name e) (`"Stmt") then Ok e else
  let! found := map_res (fun v => unwrap (find_node nodes v)) (ge_variants e) in
  match found with
  | [] => Ok e
  | n :: rest =>
      Ok (GE (ge_name e) (filter (fun t => forallb (fun n' => mem t (gn_traits n')) rest) (gn_traits n)) (ge_variants e))
  end.

(** ast.rs:97-134 [lower] *)
Definition lower_node (enums : list genum) (n : gnode) : res gnode :=
  let! fields := extract_enums enums (dedup [] (gn_fields n)) in
  extract_struct_traits owner_traits (GN (gn_name n) (gn_traits n) fields).
Definition lower (g : grammar) : res gast :=
  let! (nodes, enums) := lower_nodes g in
  let! nodes := map_res (lower_node enums) nodes in
  let! enums := map_res (extract_enum_traits nodes) enums in
  Ok (GA [`"Whitespace"; `"Comment"; `"HexString"; `"ByteString"; `"IntegerNumber"] nodes enums).

(** ** What is written for the kinds: syntax_kind.rs:115-243 [generate_syntax_kinds] *)
Definition kw_name (kw : text) : text := to_upper_snake_case kw ++ `"_KW".
(** syntax_kind.rs:159-178 [enum SyntaxKind], the variants in order *)
Definition gen_kinds (s : kinds_src) : list text :=
  [`"TOMBSTONE"; `"EOF"] ++ map snd (ks_punct s) ++ map kw_name (ks_keywords s)
    ++ ks_literals s ++ ks_tokens s ++ ks_nodes s ++ [`"__LAST"].
(** syntax_kind.rs:182-206 [is_keyword], [is_punct], [is_literal] *)
Definition gen_is_keyword (s : kinds_src) (k : text) : bool := mem k (map kw_name (ks_keywords s)).
Definition gen_is_punct (s : kinds_src) (k : text) : bool := mem k (map snd (ks_punct s)).
Definition gen_is_literal (s : kinds_src) (k : text) : bool := mem k (ks_literals s).
(** syntax_kind.rs:208-214 [from_keyword] *)
Definition gen_from_keyword (s : kinds_src) (ident : text) : option text :=
  alookup text_eqb ident (map (fun kw => (kw, kw_name kw)) (ks_keywords s)).
(** syntax_kind.rs:116-121 and 216-222 [from_char] *)
Definition gen_from_char (s : kinds_src) (c : char) : option text :=
  alookup text_eqb [c] (filter (fun p => tlen (fst p) =? 1) (ks_punct s)).
(** syntax_kind.rs:123-131 and 226-231: the macro [T!], first matching arm; [shebang] is left
    out (it names a kind that does not exist) *)
Definition gen_T (s : kinds_src) (t : text) : option text :=
  alookup text_eqb t
    (map (fun p => (quote_brackets (fst p), snd p)) (ks_punct s)
     ++ map (fun kw => (kw, kw_name kw)) (ks_keywords s) ++ [(`"ident", `"IDENT")]).

(** ** What is written for the nodes: gen_nodes.rs:3-66 and 68-138 *)
(** the kinds a struct or an enum can be cast from (gen_nodes.rs:54-56, 95-100); [Stmt]
    cannot be cast (gen_nodes.rs:89-90), a type that is not defined does not compile *)
Definition cast_kinds (a : gast) (ty : text) : list text :=
  match find_node (ga_nodes a) ty with
  | Some _ => [to_upper_snake_case ty]
  | None =>
      match find (fun e => text_eqb (ge_name e) ty) (ga_enums a) with
      | Some e => if text_eqb ty (`"Stmt") then [] else map to_upper_snake_case (ge_variants e)
      | None => []
      end
  end.
Definition can_cast (a : gast) (ty : text) (g : green) : bool := mem (kind_name (gkind g)) (cast_kinds a ty).
(** gen_nodes.rs:18-42: the body of the accessor of a field, as the list of the syntax
    nodes or tokens it returns *)
Definition accessor (a : gast) (f : field) (g : green) : list green :=
  match f with
  | FNode _ ty true => filter (can_cast a ty) (node_children g)
  | FNode _ ty false => match find (can_cast a ty) (node_children g) with Some c => [c] | None => [] end
  | FToken t =>
      match gen_T KINDS_SRC t with
      | Some k => match find (fun c => negb (is_node c) && text_eqb (kind_name (gkind c)) k) (gchildren g) with
                  | Some c => [c] | None => [] end
      | None => []
      end
  end.

(** move.ungram:19-55, as parsed by ungrammar.  Alternation binds weaker than
    juxtaposition, so the rule of [BinExpr] has five alternatives. *)
Definition move_ungram : grammar :=
  [(`"SourceFile", RepR (NodeR (`"ScriptDef")));
   (`"ScriptDef", SeqR [TokenR (`"{"); RepR (NodeR (`"FunctionDef")); TokenR (`"}")]);
   (`"FunctionDef", SeqR [TokenR (`"fun"); TokenR (`"ident"); TokenR (`"("); TokenR (`")"); TokenR (`"{");
                          RepR (NodeR (`"ExprStmt")); TokenR (`"}")]);
   (`"ExprStmt", SeqR [NodeR (`"Expr"); TokenR (`";")]);
   (`"Expr", AltR [NodeR (`"BinExpr"); NodeR (`"Literal")]);
   (`"BinExpr", AltR [SeqR [Labeled (`"lhs") (NodeR (`"Expr")); TokenR (`"+")]; TokenR (`"-"); TokenR (`"*");
                      TokenR (`"/"); SeqR [TokenR (`"%"); Labeled (`"rhs") (NodeR (`"Expr"))]]);
   (`"Literal", AltR [TokenR (`"integer_number"); TokenR (`"hex_string"); TokenR (`"byte_string");
                      TokenR (`"true"); TokenR (`"false")])].
