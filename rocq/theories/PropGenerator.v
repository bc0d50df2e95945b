(** C61: the typed tree made from a grammar offers what the grammar mentions.
    C62: the typed tree and the kinds of the repository are those of its grammar. *)
From Coq Require Import String.
From Verif Require Import Base BaseProofs Kinds KindsProofs Stdx Sink Ast
  Generator GeneratorSpec GeneratorProofs GeneratorLower GeneratorTrees GeneratorCheck.
Open Scope N_scope.

(** The grammars that are accepted: labels are not nested and not on tokens, only nodes (or
    lists with separators) are repeated, tokens can be named, and the variants of enums are
    structs.  Every other grammar ends in a panic. *)
Theorem C61_accepted_grammars : forall G, proper G -> ((exists a, lower G = Ok a) <-> acceptable G).
Proof. exact lower_acceptable. Qed.
Print Assumptions C61_accepted_grammars.

(** Each struct of the grammar is made.  Whatever its rule mentions has an accessor, either
    its own or that of an enum its type belongs to, unless the accessor is one of a trait
    noted for the struct; and there are no other accessors. *)
Theorem C61_accessors_for_every_mention : forall G a n r, proper G -> lower G = Ok a -> struct_of G n r ->
  exists X, In X (ga_nodes a) /\ gn_name X = n
    /\ (forall f, mentions r f -> exists f', stands_for G f f' /\ (In f' (gn_fields X) \/ dropped X f'))
    /\ (forall f, In f (gn_fields X) -> mentions r f
          \/ exists E vs, enum_of G E vs /\ f = FNode (to_lower_snake_case E) E false
             /\ (vs = [] \/ exists m ty b, mentions r (FNode m ty b) /\ In ty vs)).
Proof.
  intros G a n r PG Ha S. destruct (struct_exists G a Ha n r S) as (X & IX & <-). exists X.
  split; [exact IX|]. split; [reflexivity|]. exact (lowered_fields G PG a Ha X r IX S).
Qed.
Print Assumptions C61_accessors_for_every_mention.

(** On a tree that fits the rule, the accessor of a part that the rule requires finds one. *)
Theorem C61_required_parts_are_found : forall G a X r f f' g, proper G -> lower G = Ok a ->
  In X (ga_nodes a) -> struct_of G (gn_name X) r -> tree_of G r g ->
  requires r f -> stands_for G f f' -> In f' (gn_fields X) -> accessor a f' g <> [].
Proof.
  intros G a X r f f' g PG Ha IX S T Q SF I.
  destruct (required_present G None r f Q _ T) as (c & Hc & W). apply filter_In in Hc.
  apply (wanted_found G PG a Ha f' g c).
  - eapply stands_for_not_literal; [exact SF|]. apply (mention_not_literal None r). apply requires_mentions; exact Q.
  - apply Hc.
  - eapply stands_for_wanted; eassumption.
Qed.
Print Assumptions C61_required_parts_are_found.

(** On a tree that fits the rule, every child that is not the token of a literal or a
    separator is returned by an accessor, or stands behind a sibling of the same type that
    is returned instead, or belongs to a trait. *)
Theorem C61_children_are_returned_or_hidden : forall G a X r g c, proper G -> lower G = Ok a ->
  In X (ga_nodes a) -> struct_of G (gn_name X) r -> tree_of G r g ->
  In c (gchildren g) -> significant c = true ->
  passed_over G r c
  \/ exists f, wanted G f c
       /\ ((In f (gn_fields X) /\ returned_or_hidden G (accessor a f g) f g c) \/ dropped X f).
Proof.
  intros G a X r g c PG Ha IX S T Hc Sg.
  assert (L : lawful (labelled None) r).
  { apply (ac_rules G (proj1 (lower_acceptable G PG) (ex_intro _ a Ha)) _ _ S). }
  destruct (children_named G r None _ c L T) as [P|(f & M & W)]; [apply filter_In; auto|left; exact P|right].
  destruct (proj1 (lowered_fields G PG a Ha X r IX S) f M) as (f' & SF & D).
  exists f'. split; [eapply stands_for_wanted; eassumption|]. destruct D as [D|D]; [left|right; exact D].
  split; [exact D|]. apply (wanted_found G PG a Ha).
  - eapply stands_for_not_literal; [exact SF|]. exact (mention_not_literal None r f M).
  - exact Hc.
  - eapply stands_for_wanted; eassumption.
Qed.
Print Assumptions C61_children_are_returned_or_hidden.

(** On every tree, fitting or not, an accessor returns children of the declared type. *)
Theorem C61_results_have_the_type : forall G a f g c, proper G -> lower G = Ok a -> In c (accessor a f g) ->
  In c (gchildren g) /\ match f with FNode _ ty _ => of_type G ty c | FToken _ => is_node c = false end.
Proof. intros G a f g c PG Ha. exact (accessor_sound G PG a Ha f g c). Qed.
Print Assumptions C61_results_have_the_type.

(** ** What the generator gets wrong *)
Definition bin_lit : grammar :=
  [(`"Expr", AltR [NodeR (`"BinExpr"); NodeR (`"Literal")]);
   (`"BinExpr", SeqR [Labeled (`"lhs") (NodeR (`"Expr")); TokenR (`"+"); Labeled (`"rhs") (NodeR (`"Expr"))]);
   (`"Literal", TokenR (`"true"));
   (`"ParenExpr", SeqR [TokenR (`"("); NodeR (`"Literal"); NodeR (`"BinExpr"); TokenR (`")")]);
   (`"CallExpr", SeqR [NodeR (`"Expr"); NodeR (`"Literal"); NodeR (`"BinExpr")]);
   (`"Param", SeqR [NodeR (`"Name"); TokenR (`":"); NodeR (`"Literal")]);
   (`"RecordField", SeqR [Labeled (`"key") (NodeR (`"Literal")); TokenR (`":"); Labeled (`"value") (NodeR (`"Literal"))]);
   (`"Name", TokenR (`"ident"))].
Definition bin_lit_ast : gast := match lower bin_lit with Ok a => a | _ => GA [] [] [] end.
Example bin_lit_proper : proper bin_lit.
Proof. apply proper_b_spec. vm_compute. reflexivity. Qed.
Example bin_lit_lowered : lower bin_lit = Ok bin_lit_ast.
Proof. vm_compute. reflexivity. Qed.
Definition tok (k : kind) : green := GTok k [120].
Definition lit1 : green := GNode LITERAL [GTok TRUE_KW [49]].
Definition lit2 : green := GNode LITERAL [GTok TRUE_KW [50]].
Definition bin : green := GNode BIN_EXPR [lit1; tok PLUS; GTok WHITESPACE [32]; lit2].
Definition paren : green := GNode PAREN_EXPR [tok L_PAREN; lit1; bin; tok R_PAREN].
Definition struct_named (n : text) : gnode := match find_node (ga_nodes bin_lit_ast) n with Some X => X | None => GN [] [] [] end.
Definition rule_named (n : text) : rule := match alookup text_eqb n bin_lit with Some r => r | None => TokenR [] end.

Lemma literal_typed ts : of_type bin_lit (`"Literal") (GNode LITERAL ts).
Proof.
  split; [reflexivity|]. left. exists (rule_named (`"Literal")). split; [|reflexivity].
  split; [right; right; left; reflexivity|apply lower_enum_none; reflexivity].
Qed.
Lemma bin_typed ts : of_type bin_lit (`"BinExpr") (GNode BIN_EXPR ts).
Proof.
  split; [reflexivity|]. left. exists (rule_named (`"BinExpr")). split; [|reflexivity].
  split; [right; left; reflexivity|apply lower_enum_none; reflexivity].
Qed.
Lemma literal_expr ts : of_type bin_lit (`"Expr") (GNode LITERAL ts).
Proof.
  split; [reflexivity|]. right. exists [`"BinExpr"; `"Literal"], (`"Literal"). split; [|split; [right; left; reflexivity|reflexivity]].
  exists (rule_named (`"Expr")). split; [left; reflexivity|apply lower_enum_some; reflexivity].
Qed.
Example bin_fits : struct_of bin_lit (`"BinExpr") (rule_named (`"BinExpr")) /\ tree_of bin_lit (rule_named (`"BinExpr")) bin.
Proof.
  split; [split; [right; left; reflexivity|apply lower_enum_none; reflexivity]|].
  unfold tree_of. change (filter significant (gchildren bin)) with ([lit1] ++ [tok PLUS] ++ [lit2] ++ []).
  apply F_seq. apply FS_cons; [apply F_label, F_node, literal_expr|].
  apply FS_cons; [apply F_token; split; [reflexivity|left; do 10 right; left; reflexivity]|].
  apply FS_cons; [apply F_label, F_node, literal_expr|]. apply FS_nil.
Qed.
Example paren_fits : struct_of bin_lit (`"ParenExpr") (rule_named (`"ParenExpr")) /\ tree_of bin_lit (rule_named (`"ParenExpr")) paren.
Proof.
  split; [split; [right; right; right; left; reflexivity|apply lower_enum_none; reflexivity]|].
  unfold tree_of. change (filter significant (gchildren paren)) with ([tok L_PAREN] ++ [lit1] ++ [bin] ++ [tok R_PAREN] ++ []).
  apply F_seq. apply FS_cons; [apply F_token; split; [reflexivity|left; do 4 right; left; reflexivity]|].
  apply FS_cons; [apply F_node, literal_typed|]. apply FS_cons; [apply F_node, bin_typed|].
  apply FS_cons; [apply F_token; split; [reflexivity|left; do 5 right; left; reflexivity]|]. apply FS_nil.
Qed.

(** A struct that has a part of each variant of an enum, one after the other, is given one
    accessor for the enum in their place: the second part cannot be reached. *)
Theorem C61_no_child_is_lost_refuted :
  ~ (forall G a X r g c, proper G -> lower G = Ok a -> In X (ga_nodes a) -> struct_of G (gn_name X) r -> tree_of G r g ->
     In c (gchildren g) -> is_node c = true -> exists f, In f (gn_fields X) /\ In c (accessor a f g)).
Proof.
  intros H. destruct (H bin_lit bin_lit_ast (struct_named (`"ParenExpr")) (rule_named (`"ParenExpr")) paren bin
                bin_lit_proper bin_lit_lowered) as (f & If & Ia).
  - vm_compute. tauto.
  - exact (proj1 paren_fits).
  - exact (proj2 paren_fits).
  - right; right; left; reflexivity.
  - reflexivity.
  - assert (F : gn_fields (struct_named (`"ParenExpr")) = [FToken (`"'('"); FToken (`"')'"); FNode (`"expr") (`"Expr") false])
      by (vm_compute; reflexivity).
    rewrite F in If. destruct If as [<-|[<-|[<-|[]]]]; vm_compute in Ia; intuition discriminate.
Qed.
Print Assumptions C61_no_child_is_lost_refuted.

(** Labels do not tell parts of one type apart: [lhs] and [rhs] are the same node in every tree. *)
Theorem C61_labels_tell_parts_apart_refuted :
  ~ (forall G a X r l1 l2 ty g c1 c2, proper G -> lower G = Ok a -> In X (ga_nodes a) -> struct_of G (gn_name X) r ->
     r = SeqR [Labeled l1 (NodeR ty); TokenR (`"+"); Labeled l2 (NodeR ty)] ->
     In (FNode l1 ty false) (gn_fields X) -> In (FNode l2 ty false) (gn_fields X) ->
     tree_of G r g -> filter is_node (gchildren g) = [c1; c2] ->
     accessor a (FNode l1 ty false) g = [c1] /\ accessor a (FNode l2 ty false) g = [c2]).
Proof.
  intros H. destruct (H bin_lit bin_lit_ast (struct_named (`"BinExpr")) (rule_named (`"BinExpr")) (`"lhs") (`"rhs") (`"Expr")
    bin lit1 lit2 bin_lit_proper bin_lit_lowered) as [_ E].
  - vm_compute. tauto.
  - exact (proj1 bin_fits).
  - reflexivity.
  - vm_compute. tauto.
  - vm_compute. tauto.
  - exact (proj2 bin_fits).
  - reflexivity.
  - vm_compute in E. discriminate E.
Qed.
Print Assumptions C61_labels_tell_parts_apart_refuted.

(** Worse, as many parts of one variant as the enum has variants are taken for the enum:
    [key] and [value] give way to one accessor. *)
Example labelled_parts_are_lost :
  map method_name (gn_fields (struct_named (`"RecordField"))) = [Ok (`"colon_token"); Ok (`"expr")].
Proof. vm_compute. reflexivity. Qed.

(** The methods written for a struct need not have distinct names. *)
Theorem C61_methods_are_distinct_refuted :
  ~ (forall G a X, proper G -> lower G = Ok a -> In X (ga_nodes a) -> NoDup (map method_name (gn_fields X))).
Proof.
  intros H. specialize (H bin_lit bin_lit_ast (struct_named (`"CallExpr")) bin_lit_proper bin_lit_lowered).
  assert (I : In (struct_named (`"CallExpr")) (ga_nodes bin_lit_ast)) by (vm_compute; tauto). specialize (H I).
  assert (E : map method_name (gn_fields (struct_named (`"CallExpr"))) = [Ok (`"expr"); Ok (`"expr")]) by (vm_compute; reflexivity).
  rewrite E in H. inversion H as [|? ? N _]. apply N. left; reflexivity.
Qed.
Print Assumptions C61_methods_are_distinct_refuted.

(** A part whose accessor would be one of a trait has no accessor at all: the trait is not
    implemented for structs (the code that would write it is commented out). *)
Theorem C61_every_mention_has_a_method_refuted :
  ~ (forall G a X r f, proper G -> lower G = Ok a -> In X (ga_nodes a) -> struct_of G (gn_name X) r -> mentions r f ->
     exists f', stands_for G f f' /\ In f' (gn_fields X)).
Proof.
  intros H. assert (S : struct_of bin_lit (gn_name (struct_named (`"Param"))) (rule_named (`"Param"))).
  { split; [vm_compute; tauto|apply lower_enum_none; reflexivity]. }
  destruct (H bin_lit bin_lit_ast (struct_named (`"Param")) (rule_named (`"Param")) (FNode (`"name") (`"Name") false)
    bin_lit_proper bin_lit_lowered) as (f' & SF & I).
  - vm_compute. tauto.
  - exact S.
  - assert (N : forall n, ~ list_of n [NodeR (`"Name"); TokenR (`":"); NodeR (`"Literal")]) by (intros n (c & X); discriminate X).
    unfold mentions. eapply M_seq; [exact N|left; reflexivity|]. exact (M_node token_field None (`"Name")).
  - assert (F : gn_fields (struct_named (`"Param")) = [FToken (`":"); FNode (`"literal") (`"Literal") false]) by (vm_compute; reflexivity).
    rewrite F in I. destruct SF as [->|(n & ty & b & E & vs & X & HE & V & ->)].
    + destruct I as [I|[I|[]]]; discriminate I.
    + destruct I as [I|[I|[]]]; [discriminate I|]. injection I as _ <-.
      destruct HE as (r & HE & C). apply lower_enum_some in C.
      assert (Y : forall r, In (`"Literal", r) bin_lit -> lower_enum r = None).
      { intros r0 J. cbn [bin_lit In] in J. repeat (destruct J as [J|J]; [try discriminate J; injection J as <-; reflexivity|]). destruct J. }
      rewrite (Y _ HE) in C. discriminate C.
Qed.
Print Assumptions C61_every_mention_has_a_method_refuted.

(** Non-vacuity: the hypotheses of the theorems above hold of [bin] and [paren], trees of an accepted grammar. *)
Example bin_required : requires (rule_named (`"BinExpr")) (FNode (`"rhs") (`"Expr") false)
  /\ In (FNode (`"rhs") (`"Expr") false) (gn_fields (struct_named (`"BinExpr"))).
Proof.
  split; [|vm_compute; tauto].
  assert (N : forall n, ~ list_of n [Labeled (`"lhs") (NodeR (`"Expr")); TokenR (`"+"); Labeled (`"rhs") (NodeR (`"Expr"))])
    by (intros n (c & X); discriminate X).
  unfold requires. eapply Q_seq; [exact N|right; right; left; reflexivity|]. apply Q_label. exact (Q_node (Some (`"rhs")) (`"Expr")).
Qed.
Example nested_labels_panic : lower [(`"A", Labeled (`"x") (Labeled (`"y") (NodeR (`"A"))))] = Panic PAssert.
Proof. vm_compute. reflexivity. Qed.
Example unknown_punctuation_panics : lower [(`"A", TokenR (`"->"))] = Panic PAssert.
Proof. vm_compute. reflexivity. Qed.
Example enum_of_enums_panics : lower [(`"A", AltR [NodeR (`"B"); NodeR (`"C")]); (`"B", AltR [NodeR (`"C"); NodeR (`"C")]); (`"C", TokenR (`"true"))] = Panic PUnwrap.
Proof. vm_compute. reflexivity. Qed.

(** ** C62 *)
(** crates/syntax/src/ast/nodes.rs as modelled in Ast.v: each struct with its accessors *)
Definition nodes_rs : list (text * list (text * (green -> list green))) :=
  [(`"SourceFile", [(`"script_defs", fun g => map script_syntax (script_defs (SourceFile_ g)))]);
   (`"ScriptDef", [(`"l_brace_token", fun g => opt (script_l_brace (ScriptDef_ g)));
                   (`"function_defs", fun g => map function_syntax (function_defs (ScriptDef_ g)));
                   (`"r_brace_token", fun g => opt (script_r_brace (ScriptDef_ g)))]);
   (`"FunctionDef", [(`"fun_token", fun g => opt (fun_token (FunctionDef_ g)));
                     (`"ident_token", fun g => opt (ident_token (FunctionDef_ g)));
                     (`"l_paren_token", fun g => opt (function_l_paren (FunctionDef_ g)));
                     (`"r_paren_token", fun g => opt (function_r_paren (FunctionDef_ g)));
                     (`"l_brace_token", fun g => opt (function_l_brace (FunctionDef_ g)));
                     (`"expr_stmts", fun g => map stmt_syntax (expr_stmts (FunctionDef_ g)));
                     (`"r_brace_token", fun g => opt (function_r_brace (FunctionDef_ g)))]);
   (`"ExprStmt", [(`"expr", fun g => opt (option_map expr_syntax (stmt_expr (ExprStmt_ g))));
                  (`"semicolon_token", fun g => opt (semicolon_token (ExprStmt_ g)))]);
   (`"BinExpr", [(`"lhs", fun g => opt (option_map expr_syntax (lhs (BinExpr_ g))));
                 (`"plus_token", fun g => opt (plus_token (BinExpr_ g)));
                 (`"minus_token", fun g => opt (minus_token (BinExpr_ g)));
                 (`"star_token", fun g => opt (star_token (BinExpr_ g)));
                 (`"slash_token", fun g => opt (slash_token (BinExpr_ g)));
                 (`"mod_token", fun g => opt (mod_token (BinExpr_ g)));
                 (`"rhs", fun g => opt (option_map expr_syntax (rhs (BinExpr_ g))))]);
   (`"Literal", [(`"true_token", fun g => opt (true_token (Literal_ g)));
                 (`"false_token", fun g => opt (false_token (Literal_ g)))])].
(** nodes.rs: the [cast] of each type *)
Definition casts_rs : list (text * (green -> option green)) :=
  [(`"SourceFile", fun g => option_map (fun s => match s with SourceFile_ g => g end) (cast_source_file g));
   (`"ScriptDef", fun g => option_map script_syntax (cast_script g));
   (`"FunctionDef", fun g => option_map function_syntax (cast_function g));
   (`"ExprStmt", fun g => option_map stmt_syntax (cast_expr_stmt g));
   (`"BinExpr", fun g => option_map bin_syntax (cast_bin g));
   (`"Literal", fun g => option_map literal_syntax (cast_literal g));
   (`"Expr", fun g => option_map expr_syntax (cast_expr g))].
Example move_proper : proper move_ungram.
Proof. apply proper_b_spec. vm_compute. reflexivity. Qed.
Definition move_ast : gast := Eval vm_compute in match lower move_ungram with Ok a => a | _ => GA [] [] [] end.

Lemma one_kind {N} (a : gast) ty k (mk : green -> N) (syn : N -> green) :
  (forall g, syn (mk g) = g) -> cast_kinds a ty = [kind_name k] ->
  forall g, option_map syn (if kind_eqb (gkind g) k then Some (mk g) else None) = if can_cast a ty g then Some g else None.
Proof.
  intros S E g. unfold can_cast. rewrite E. unfold mem. cbn [existsb]. rewrite kind_name_eqb, orb_false_r.
  destruct (kind_eqb (gkind g) k); cbn [option_map]; [rewrite S; reflexivity|reflexivity].
Qed.
Lemma expr_cast g : option_map expr_syntax (cast_expr g) = if can_cast move_ast (`"Expr") g then Some g else None.
Proof.
  unfold can_cast. assert (E : cast_kinds move_ast (`"Expr") = [kind_name BIN_EXPR; kind_name LITERAL]) by (vm_compute; reflexivity).
  rewrite E. unfold mem. cbn [existsb]. rewrite !kind_name_eqb, orb_false_r. unfold cast_expr.
  destruct g as [k cs|k t]; destruct k; reflexivity.
Qed.
Lemma token_accessor a t k : gen_T KINDS_SRC t = Some (kind_name k) -> forall g, accessor a (FToken t) g = opt (token g k).
Proof. intros E g. cbn [accessor]. rewrite E, token_find. reflexivity. Qed.
Lemma many_accessor {N} a n ty (cast : green -> option N) syn :
  (forall g, option_map syn (cast g) = if can_cast a ty g then Some g else None) ->
  forall g, accessor a (FNode n ty true) g = map syn (children cast g).
Proof. intros H g. rewrite (children_filter cast syn (can_cast a ty) H). reflexivity. Qed.
Lemma one_accessor {N} a n ty (cast : green -> option N) syn :
  (forall g, option_map syn (cast g) = if can_cast a ty g then Some g else None) ->
  forall g, accessor a (FNode n ty false) g = opt (option_map syn (child cast g)).
Proof. intros H g. rewrite (child_find cast syn (can_cast a ty) H). reflexivity. Qed.

(** The structs, the enum, the names of the accessors and what they return on every tree
    are those of nodes.rs; so are the casts. *)
Theorem C62_typed_tree_is_that_of_the_grammar : exists a, lower move_ungram = Ok a
  /\ map (fun X => (gn_name X, map method_name (gn_fields X))) (ga_nodes a)
       = map (fun e => (fst e, map (fun m => Ok (fst m)) (snd e))) nodes_rs
  /\ Forall2 (fun X e => Forall2 (fun f m => forall g, accessor a f g = snd m g) (gn_fields X) (snd e)) (ga_nodes a) nodes_rs
  /\ map (fun e => (ge_name e, ge_variants e)) (ga_enums a) = [(`"Expr", [`"BinExpr"; `"Literal"])]
  /\ map fst casts_rs = map gn_name (ga_nodes a) ++ map ge_name (ga_enums a)
  /\ Forall (fun p => forall g, snd p g = if can_cast a (fst p) g then Some g else None) casts_rs.
Proof.
  exists move_ast. split; [vm_compute; reflexivity|]. split; [vm_compute; reflexivity|]. split; [|split; [reflexivity|split; [reflexivity|]]].
  - repeat (apply Forall2_cons || apply Forall2_nil).
    + exact (many_accessor move_ast _ _ cast_script script_syntax (one_kind move_ast (`"ScriptDef") SCRIPT_DEF ScriptDef_ _ (fun _ => eq_refl) eq_refl)).
    + refine (token_accessor move_ast _ L_BRACE _); vm_compute; reflexivity.
    + exact (many_accessor move_ast _ _ cast_function function_syntax (one_kind move_ast (`"FunctionDef") FUNCTION_DEF FunctionDef_ _ (fun _ => eq_refl) eq_refl)).
    + refine (token_accessor move_ast _ R_BRACE _); vm_compute; reflexivity.
    + refine (token_accessor move_ast _ FUN_KW _); vm_compute; reflexivity.
    + refine (token_accessor move_ast _ IDENT _); vm_compute; reflexivity.
    + refine (token_accessor move_ast _ L_PAREN _); vm_compute; reflexivity.
    + refine (token_accessor move_ast _ R_PAREN _); vm_compute; reflexivity.
    + refine (token_accessor move_ast _ L_BRACE _); vm_compute; reflexivity.
    + exact (many_accessor move_ast _ _ cast_expr_stmt stmt_syntax (one_kind move_ast (`"ExprStmt") EXPR_STMT ExprStmt_ _ (fun _ => eq_refl) eq_refl)).
    + refine (token_accessor move_ast _ R_BRACE _); vm_compute; reflexivity.
    + exact (one_accessor move_ast _ _ cast_expr expr_syntax expr_cast).
    + refine (token_accessor move_ast _ SEMICOLON _); vm_compute; reflexivity.
    + exact (one_accessor move_ast _ _ cast_expr expr_syntax expr_cast).
    + refine (token_accessor move_ast _ PLUS _); vm_compute; reflexivity.
    + refine (token_accessor move_ast _ MINUS _); vm_compute; reflexivity.
    + refine (token_accessor move_ast _ STAR _); vm_compute; reflexivity.
    + refine (token_accessor move_ast _ SLASH _); vm_compute; reflexivity.
    + refine (token_accessor move_ast _ MOD _); vm_compute; reflexivity.
    + exact (one_accessor move_ast _ _ cast_expr expr_syntax expr_cast).
    + refine (token_accessor move_ast _ TRUE_KW _); vm_compute; reflexivity.
    + refine (token_accessor move_ast _ FALSE_KW _); vm_compute; reflexivity.
  - repeat (apply Forall_cons || apply Forall_nil); cbn [fst snd].
    + exact (one_kind move_ast (`"SourceFile") SOURCE_FILE SourceFile_ _ (fun _ => eq_refl) eq_refl).
    + exact (one_kind move_ast (`"ScriptDef") SCRIPT_DEF ScriptDef_ _ (fun _ => eq_refl) eq_refl).
    + exact (one_kind move_ast (`"FunctionDef") FUNCTION_DEF FunctionDef_ _ (fun _ => eq_refl) eq_refl).
    + exact (one_kind move_ast (`"ExprStmt") EXPR_STMT ExprStmt_ _ (fun _ => eq_refl) eq_refl).
    + exact (one_kind move_ast (`"BinExpr") BIN_EXPR BinExpr_ _ (fun _ => eq_refl) eq_refl).
    + exact (one_kind move_ast (`"Literal") LITERAL Literal_ _ (fun _ => eq_refl) eq_refl).
    + exact expr_cast.
Qed.
Print Assumptions C62_typed_tree_is_that_of_the_grammar.

(** tokens.rs: the cast of each typed token *)
Definition token_casts_rs : list (text * (green -> option green)) :=
  [(`"Whitespace", fun g => option_map (fun t => match t with Whitespace_ g => g end) (cast_whitespace g));
   (`"Comment", fun g => option_map (fun t => match t with Comment_ g => g end) (cast_comment g));
   (`"HexString", fun g => option_map (fun t => match t with HexString_ g => g end) (cast_hex_string g));
   (`"ByteString", fun g => option_map (fun t => match t with ByteString_ g => g end) (cast_byte_string g));
   (`"IntegerNumber", fun g => option_map (fun t => match t with IntegerNumber_ g => g end) (cast_integer g))].
(** The typed tokens are those of tokens.rs, cast from the kind of their name (gen_tokens.rs:3-25). *)
Theorem C62_typed_tokens_are_those_of_the_grammar : exists a, lower move_ungram = Ok a
  /\ map fst token_casts_rs = ga_tokens a
  /\ Forall (fun p => forall k t, snd p (GTok k t) = if text_eqb (kind_name k) (to_upper_snake_case (fst p)) then Some (GTok k t) else None) token_casts_rs.
Proof.
  exists move_ast. split; [vm_compute; reflexivity|]. split; [reflexivity|].
  assert (E : forall {A} (mk : green -> A) (syn : A -> green) k n, (forall g, syn (mk g) = g) -> to_upper_snake_case n = kind_name k ->
    forall k' t, option_map syn (cast_tok mk k (GTok k' t)) = if text_eqb (kind_name k') (to_upper_snake_case n) then Some (GTok k' t) else None).
  { intros A mk syn k n S N k' t. rewrite N, kind_name_eqb. cbn [cast_tok]. destruct (kind_eqb k' k); cbn [option_map]; [rewrite S|]; reflexivity. }
  repeat (apply Forall_cons || apply Forall_nil); cbn [fst snd]; apply E; try reflexivity; intros g; reflexivity.
Qed.
Print Assumptions C62_typed_tokens_are_those_of_the_grammar.

(** The kinds, in their order, their classes and the kinds of keywords and single characters
    are those written for the source table. *)
Theorem C62_kinds_are_those_of_the_table :
  map kind_name all_kinds = gen_kinds KINDS_SRC
  /\ (forall k, is_keyword k = gen_is_keyword KINDS_SRC (kind_name k))
  /\ (forall k, is_punct k = gen_is_punct KINDS_SRC (kind_name k))
  /\ (forall k, is_literal k = gen_is_literal KINDS_SRC (kind_name k))
  /\ (forall s, option_map kind_name (from_keyword s) = gen_from_keyword KINDS_SRC s)
  /\ (forall c, option_map kind_name (from_char c) = gen_from_char KINDS_SRC c).
Proof.
  assert (M : forall l k, mem (kind_name k) (map kind_name l) = kind_in k l).
  { intros l k. unfold mem, kind_in. induction l as [|x l IH]; [reflexivity|]. cbn [map existsb]. rewrite kind_name_eqb, IH. reflexivity. }
  split; [vm_compute; reflexivity|]. split; [|split; [|split; [|split]]].
  - intros k. unfold gen_is_keyword. assert (E : map kw_name (ks_keywords KINDS_SRC) = map kind_name keyword_kinds) by (vm_compute; reflexivity).
    rewrite E, M. reflexivity.
  - intros k. unfold gen_is_punct. assert (E : map snd (ks_punct KINDS_SRC) = map kind_name punct_kinds) by (vm_compute; reflexivity).
    rewrite E, M. reflexivity.
  - intros k. unfold gen_is_literal. change (ks_literals KINDS_SRC) with (map kind_name [INTEGER_NUMBER; BYTE_STRING; HEX_STRING]).
    rewrite M. reflexivity.
  - intros s. unfold from_keyword, gen_from_keyword. rewrite <- alookup_map. f_equal.
  - intros c. unfold from_char, gen_from_char.
    assert (E : filter (fun p => tlen (fst p) =? 1) (ks_punct KINDS_SRC) = map (fun p => ([fst p], kind_name (snd p))) char_table) by (vm_compute; reflexivity).
    rewrite E. clear E. induction char_table as [|[d k] m IH]; [reflexivity|]. cbn [map fst snd alookup text_eqb].
    rewrite andb_true_r. destruct (d =? c); [reflexivity|exact IH].
Qed.
Print Assumptions C62_kinds_are_those_of_the_table.
