(** Property C27: the accessors of the typed AST. *)
From Coq Require Import String.
From Verif Require Import Base BaseProofs Kinds KindsProofs LexSpec Lexer Parser Grammar Sink TreeSpec GreenSpec
  ParserLogic ParseProofs PropParser Ast.
Local Open Scope N_scope.

(** ** Specification: the parts of a node besides trivia *)
Definition parts (cs : list green) : list green :=
  filter (fun g => match g with GNode _ _ => true | GTok k _ => negb (is_trivia k) end) cs.

Lemma strip_parts cs : flat_map strip (parts cs) = flat_map strip cs.
Proof.
  induction cs as [|g cs IH]; [reflexivity|]. destruct g as [k gs|k w]; cbn [parts filter]; fold (parts cs).
  - cbn [flat_map]. rewrite IH. reflexivity.
  - cbn [flat_map strip]. destruct (is_trivia k) eqn:E; cbn [negb flat_map strip]; rewrite IH; [reflexivity|]. rewrite E. reflexivity.
Qed.
Lemma parts_single x g : In g (parts x) -> exists y, strip g = [y].
Proof.
  intros H. apply filter_In in H as [_ H]. destruct g as [k gs|k w]; cbn; [eauto|]. destruct (is_trivia k); [discriminate|eauto].
Qed.
Lemma parts_three cs a b c : flat_map strip cs = [a; b; c] ->
  exists ga gb gc, parts cs = [ga; gb; gc] /\ strip ga = [a] /\ strip gb = [b] /\ strip gc = [c].
Proof.
  rewrite <- strip_parts. intros H.
  assert (P : forall g, In g (parts cs) -> exists y, strip g = [y]) by (intros g; apply parts_single).
  destruct (parts cs) as [|ga l]; [discriminate|]. destruct (P ga) as [ya Ha]; [left; reflexivity|].
  cbn [flat_map] in H. rewrite Ha in H. injection H as -> H.
  destruct l as [|gb l]; [discriminate|]. destruct (P gb) as [yb Hb]; [right; left; reflexivity|].
  cbn [flat_map] in H. rewrite Hb in H. injection H as -> H.
  destruct l as [|gc l]; [discriminate|]. destruct (P gc) as [yc Hc]; [right; right; left; reflexivity|].
  cbn [flat_map] in H. rewrite Hc in H. injection H as -> H.
  destruct l as [|gd l]; [exists ga, gb, gc; auto|]. destruct (P gd) as [yd Hd]; [right; right; right; left; reflexivity|].
  cbn [flat_map] in H. rewrite Hd in H. discriminate.
Qed.
Lemma nodes_parts cs : filter is_node cs = filter is_node (parts cs).
Proof.
  induction cs as [|g cs IH]; [reflexivity|]. destruct g as [k gs|k w]; cbn [parts filter is_node]; fold (parts cs); rewrite IH; [reflexivity|].
  destruct (negb (is_trivia k)); reflexivity.
Qed.
Lemma token_parts cs k : is_trivia k = false -> token (GNode BIN_EXPR cs) k = token (GNode BIN_EXPR (parts cs)) k.
Proof.
  intros Hk. unfold token. cbn [gchildren]. induction cs as [|g cs IH]; [reflexivity|].
  destruct g as [k' gs|k' w]; cbn [parts filter find_map is_node gkind]; fold (parts cs); [exact IH|].
  destruct (kind_eqb k' k) eqn:E.
  - apply kind_eqb_eq in E. subst. rewrite Hk. cbn [negb find_map is_node gkind]. rewrite (proj2 (kind_eqb_eq k k) eq_refl). reflexivity.
  - destruct (is_trivia k'); cbn [negb find_map is_node gkind]; rewrite ?E; exact IH.
Qed.
Lemma strip_node g k cs : strip g = [TNode k cs] -> exists gs, g = GNode k gs.
Proof. destruct g as [k' gs|k' w]; cbn; [|destruct (is_trivia k'); discriminate]. intros H. injection H as -> _. eauto. Qed.
Lemma strip_tok g k : strip g = [TTok k] -> exists w, g = GTok k w.
Proof. destruct g as [k' gs|k' w]; cbn; [discriminate|]. destruct (is_trivia k'); [discriminate|]. intros H. injection H as ->. eauto. Qed.
Lemma binds_node n t : binds n t -> exists k cs, t = TNode k cs.
Proof. destruct t; cbn; try contradiction. eauto. Qed.

(** ** The parts of a binary expression of a parsed file *)
Theorem C27_parts : forall t g errs cs,
  tlen t < u32_bound -> parse_text t = Ok (g, errs) -> inside (GNode BIN_EXPR cs) g ->
  exists kl ls op w kr rs, parts cs = [GNode kl ls; GTok op w; GNode kr rs] /\ prec op <> None.
Proof.
  intros t g errs cs Hs H Hin.
  destruct (C23_grouping_partial t g errs cs Hs H Hin) as (l & op & r & p & E & Hp & Bl & Br).
  apply parts_three in E as (ga & gb & gc & E & Ea & Eb & Ec).
  destruct (binds_node _ _ Bl) as (kl & csl & ->), (binds_node _ _ Br) as (kr & csr & ->).
  apply strip_node in Ea as [ls ->]. apply strip_node in Ec as [rs ->]. apply strip_tok in Eb as [w ->].
  exists kl, ls, op, w, kr, rs. split; [exact E|]. rewrite Hp. discriminate.
Qed.

(** [lhs] is the left operand if that operand is an expression of the AST: a
    binary expression or a literal.  (Missing: every other kind of operand,
    see below.) *)
Theorem C27_lhs_partial : forall t g errs cs l op r,
  tlen t < u32_bound -> parse_text t = Ok (g, errs) -> inside (GNode BIN_EXPR cs) g ->
  parts cs = [l; op; r] -> gkind l = BIN_EXPR \/ gkind l = LITERAL ->
  exists e, lhs (BinExpr_ (GNode BIN_EXPR cs)) = Some e /\ expr_syntax e = l.
Proof.
  intros t g errs cs l op r Hs H Hin E Hk.
  destruct (C27_parts t g errs cs Hs H Hin) as (kl & ls & o & w & kr & rs & E' & _). rewrite E in E'. injection E' as -> -> ->.
  unfold lhs, child, node_children. cbn [bin_syntax gchildren]. rewrite nodes_parts, E. cbn [filter is_node find_map].
  cbn [gkind] in Hk. destruct Hk as [-> | ->]; cbn; eauto.
Qed.
(** [rhs] is whatever [lhs] is, so it is the right operand only if the left
    one is no AST expression. *)
Theorem C27_rhs_partial : forall t g errs cs l op r,
  tlen t < u32_bound -> parse_text t = Ok (g, errs) -> inside (GNode BIN_EXPR cs) g ->
  parts cs = [l; op; r] -> gkind l <> BIN_EXPR -> gkind l <> LITERAL -> gkind r = BIN_EXPR \/ gkind r = LITERAL ->
  exists e, rhs (BinExpr_ (GNode BIN_EXPR cs)) = Some e /\ expr_syntax e = r.
Proof.
  intros t g errs cs l op r Hs H Hin E N1 N2 Hk.
  destruct (C27_parts t g errs cs Hs H Hin) as (kl & ls & o & w & kr & rs & E' & _). rewrite E in E'. injection E' as -> -> ->.
  unfold rhs, child, node_children. cbn [bin_syntax gchildren]. rewrite nodes_parts, E. cbn [filter is_node find_map].
  cbn [gkind] in *. unfold cast_expr at 1. cbn [gkind].
  replace (match kl with BIN_EXPR => Some (EBin (BinExpr_ (GNode kl ls))) | LITERAL => Some (ELit (Literal_ (GNode kl ls))) | _ => None end)
    with (@None expr) by (destruct kl; congruence).
  destruct Hk as [-> | ->]; cbn; eauto.
Qed.
(** The operator token of a binary expression is the one that is there, and
    no other accessor finds a token. *)
Lemma operator_token : forall t g errs cs l op w r k,
  tlen t < u32_bound -> parse_text t = Ok (g, errs) -> inside (GNode BIN_EXPR cs) g ->
  parts cs = [l; GTok op w; r] -> is_trivia k = false ->
  token (GNode BIN_EXPR cs) k = if kind_eqb op k then Some (GTok op w) else None.
Proof.
  intros t g errs cs l op w r k Hs H Hin E Hk.
  destruct (C27_parts t g errs cs Hs H Hin) as (kl & ls & o & w' & kr & rs & E' & _). rewrite E in E'. injection E' as -> -> -> ->.
  rewrite (token_parts _ _ Hk), E. cbn. destruct (kind_eqb o k); reflexivity.
Qed.
Theorem C27_operator : forall t g errs cs l op w r,
  tlen t < u32_bound -> parse_text t = Ok (g, errs) -> inside (GNode BIN_EXPR cs) g ->
  parts cs = [l; GTok op w; r] ->
  let b := BinExpr_ (GNode BIN_EXPR cs) in
  let found (k : kind) := if kind_eqb op k then Some (GTok op w) else None in
  plus_token b = found PLUS /\ minus_token b = found MINUS /\ star_token b = found STAR /\
  slash_token b = found SLASH /\ mod_token b = found MOD.
Proof.
  intros t g errs cs l op w r Hs H Hin E b found. unfold plus_token, minus_token, star_token, slash_token, mod_token, b, found.
  cbn [bin_syntax]. repeat split; apply (operator_token t g errs cs l op w r _ Hs H Hin E); reflexivity.
Qed.

(** ** The accessors are wrong in parsed files without errors *)
Fixpoint find_kind_fuel (fuel : nat) (k : kind) (g : green) : option green :=
  match fuel with
  | O => None
  | S fuel => match g with
              | GTok _ _ => None
              | GNode k' cs => if kind_eqb k' k then Some g else find_map (find_kind_fuel fuel k) cs
              end
  end.
Definition find_kind := find_kind_fuel 20.
Lemma find_map_in {A B} (f : A -> option B) l y : find_map f l = Some y -> exists x, In x l /\ f x = Some y.
Proof.
  induction l as [|x l IH]; [discriminate|]. cbn. destruct (f x) eqn:E.
  - intros H. injection H as ->. exists x. auto.
  - intros H. destruct (IH H) as (x' & I & E'). exists x'. auto.
Qed.
Lemma find_kind_inside k : forall g x, find_kind k g = Some x -> inside x g.
Proof.
  unfold find_kind. generalize 20%nat. intros n. induction n as [|n IH]; intros g x; cbn [find_kind_fuel]; [discriminate|].
  destruct g as [k' cs|]; [|discriminate]. destruct (kind_eqb k' k).
  - intros H. injection H as ->. constructor.
  - intros H. apply find_map_in in H as (c & I & H). eapply inside_child; [exact I|]. apply IH. exact H.
Qed.
Definition sum_file : text := `"script { fun main() { 1 + 2; } }".
Theorem C27_rhs_refuted : exists t g b,
  parse_text t = Ok (g, []) /\ inside b g /\ gkind b = BIN_EXPR /\
  exists l op r, parts (gchildren b) = [l; op; r] /\ gtext l = `"1" /\ gtext r = `"2" /\
    option_map expr_syntax (rhs (BinExpr_ b)) = Some l /\ gkind l = gkind r.
Proof.
  exists sum_file. destruct (parse_text sum_file) as [[g errs]|w|] eqn:E; [|exfalso; vm_compute in E; discriminate E|exfalso; vm_compute in E; discriminate E].
  assert (X : match find_kind BIN_EXPR g with
    | Some b => errs = [] /\ match parts (gchildren b) with
        | [l; op; r] => gtext l = `"1" /\ gtext r = `"2" /\ option_map expr_syntax (rhs (BinExpr_ b)) = Some l /\ gkind l = gkind r /\ gkind b = BIN_EXPR
        | _ => False end
    | None => False end).
  { vm_compute in E. injection E as <- <-. vm_compute. repeat split. }
  destruct (find_kind BIN_EXPR g) as [b|] eqn:F; [|contradiction]. destruct X as [-> X].
  destruct (parts (gchildren b)) as [|l [|op [|r [|]]]] eqn:P; try contradiction. destruct X as (X1 & X2 & X3 & X4 & X5).
  exists g, b. split; [reflexivity|]. split; [eapply find_kind_inside; exact F|]. split; [exact X5|].
  exists l, op, r. auto.
Qed.
(** Operands that are names, calls, or in parentheses are not found at all, a
    script's functions are not found, and neither are a function's name and
    statements. *)
Definition names_file : text := `"script { fun main() { a + b; } }".
Theorem C27_other_accessors_refuted : exists t g b s f,
  parse_text t = Ok (g, []) /\
  inside b g /\ gkind b = BIN_EXPR /\ lhs (BinExpr_ b) = None /\ rhs (BinExpr_ b) = None /\
  inside s g /\ gkind s = SCRIPT_DEF /\ inside f s /\ gkind f = FUNCTION_DEF /\ function_defs (ScriptDef_ s) = [] /\
  ident_token (FunctionDef_ f) = None /\ expr_stmts (FunctionDef_ f) = [].
Proof.
  exists names_file. destruct (parse_text names_file) as [[g errs]|w|] eqn:E; [|exfalso; vm_compute in E; discriminate E|exfalso; vm_compute in E; discriminate E].
  assert (X : match find_kind BIN_EXPR g, find_kind SCRIPT_DEF g with
    | Some b, Some s => errs = [] /\ lhs (BinExpr_ b) = None /\ gkind b = BIN_EXPR /\ gkind s = SCRIPT_DEF /\ function_defs (ScriptDef_ s) = [] /\
        match find_kind FUNCTION_DEF s with
        | Some f => gkind f = FUNCTION_DEF /\ ident_token (FunctionDef_ f) = None /\ expr_stmts (FunctionDef_ f) = []
        | None => False end
    | _, _ => False end).
  { vm_compute in E. injection E as <- <-. vm_compute. repeat split. }
  destruct (find_kind BIN_EXPR g) as [b|] eqn:F; [|contradiction].
  destruct (find_kind SCRIPT_DEF g) as [s|] eqn:F2; [|contradiction].
  destruct X as (-> & X1 & X2 & X3 & X4 & X5).
  destruct (find_kind FUNCTION_DEF s) as [f|] eqn:F3; [|contradiction]. destruct X5 as (X5 & X6 & X7).
  exists g, b, s, f. pose proof (find_kind_inside _ _ _ F). pose proof (find_kind_inside _ _ _ F2). pose proof (find_kind_inside _ _ _ F3).
  repeat (split; [solve [auto]|]). auto.
Qed.

Print Assumptions C27_parts.
Print Assumptions C27_lhs_partial.
Print Assumptions C27_rhs_partial.
Print Assumptions C27_operator.
Print Assumptions C27_rhs_refuted.
Print Assumptions C27_other_accessors_refuted.
