(** The nodes of the trees of LenientSpec.v, and the accessors of the typed AST
    in terms of trees without trivia. *)
From Coq Require Import String.
From Verif Require Import Base BaseProofs Kinds KindsProofs LexSpec Lexer Parser Grammar Sink TreeSpec GreenSpec
  ParserLogic SinkProofs ParseProofs SyntaxSpec AcceptTop LenientSpec LenientTop Ast PropParser PropAst.
Local Open Scope N_scope.

(** ** What a node of each kind is made of *)
Definition is_tnode (t : tree) : Prop := exists k cs, t = TNode k cs.
Definition node_form (k : kind) (cs : list tree) : Prop :=
  match k with
  | SCRIPT_DEF => (exists is, cs = [TTok SCRIPT_KW; TNode ITEM_LIST is]) \/ cs = [TTok SCRIPT_KW; TTok SEMICOLON]
  | FUNCTION_DEF => exists ps r b, cs = TTok FUN_KW :: name_node :: TNode PARAM_LIST ps :: r ++ [TNode BLOCK_EXPR b] /\
      (r = [] \/ exists y, r = [TNode RET_TYPE y])
  | EXPR_STMT => exists e s, cs = e :: s /\ is_tnode e /\ opt_semi s
  | LITERAL => (exists k, cs = [TTok k] /\ In k [TRUE_KW; FALSE_KW; INTEGER_NUMBER; BYTE_STRING; HEX_STRING]) \/
      exists a, cs = [TNode ADDRESS_LIT a]
  | _ => True
  end.
Fixpoint deep (t : tree) : Prop :=
  match t with
  | TNode k cs => node_form k cs /\ (fix all (l : list tree) : Prop := match l with [] => True | x :: r => deep x /\ all r end) cs
  | _ => True
  end.
Definition deeps := fix all (l : list tree) : Prop := match l with [] => True | x :: r => deep x /\ all r end.
Lemma deeps_app a b : deeps (a ++ b) <-> deeps a /\ deeps b.
Proof. induction a as [|x a IH]; cbn [app deeps]; [tauto|]. rewrite IH. tauto. Qed.
Lemma deep_node k cs : deep (TNode k cs) <-> node_form k cs /\ deeps cs.
Proof. reflexivity. Qed.

Definition node_phrase (x : nt) : bool :=
  match x with Expr _ | Unary | Postfix | Atom => true | _ => false end.
Lemma lenient_node x f : lenient x f -> 
  (node_phrase x = true -> exists k cs, f = [TNode k cs]) /\
  (x = Block -> exists cs, f = [TNode BLOCK_EXPR cs]) /\
  (x = RetType -> f = [] \/ exists y, f = [TNode RET_TYPE y]).
Proof.
  induction 1; (split; [|split]); try discriminate; intros _; eauto.
  all: try match goal with H : _ /\ _ /\ _ |- _ => destruct H as (I1 & I2 & I3) end; auto.
  destruct (I2 eq_refl) as [cs ->]. eauto.
Qed.

Lemma lenient_deep : forall x f, lenient x f -> deeps f.
Proof.
  fix IH 3. intros x f H. destruct H.
  all: repeat match goal with H : lenient (Expr _) _ |- _ => pose proof (proj1 (lenient_node _ _ H) eq_refl); apply IH in H end.
  all: repeat match goal with H : lenient Block _ |- _ => pose proof (proj1 (proj2 (lenient_node _ _ H)) eq_refl); apply IH in H end.
  all: repeat match goal with H : lenient RetType _ |- _ => pose proof (proj2 (proj2 (lenient_node _ _ H)) eq_refl); apply IH in H end.
  all: repeat match goal with H : lenient _ _ |- _ => apply IH in H end.
  all: try match goal with H : separate _ |- _ => clear H end.
  all: try match goal with H : _ -> parted _ _ |- _ => clear H end.
  all: try match goal with H : Forall _ ?es |- _ =>
    assert (deeps es) by
      (induction H as [|e es He Hes IHes]; [exact I|]; apply IH in He; cbn [deeps] in *; tauto); clear H end.
  all: try assumption.
  all: repeat match goal with H : opt_semi ?s |- _ => assert (deeps s) by (destruct H as [-> | ->]; cbn; auto);
     lazymatch goal with _ : opt_semi s |- _ => revert H end end; intros.
  all: repeat first [ progress cbn [deeps] in * | rewrite deep_node in * | rewrite deeps_app in * ].
  all: cbn [node_form].
  all: repeat match goal with H : _ /\ _ |- _ => destruct H end; repeat split; auto.
  all: try exact I.
  all: try (cbn; tauto).
  all: eauto 8.
  - destruct H2 as [cs E]. injection E as ->. eauto 8.
  - match goal with E : exists k cs, [e] = _ |- _ => destruct E as (k & cs & E); injection E as -> end.
    eexists _, _. split; [reflexivity|]. split; [eexists _, _; reflexivity|assumption].
Qed.

(** ** Green trees *)
Lemma inside_deep x g : inside x g -> deeps (strip g) -> deeps (strip x).
Proof.
  induction 1 as [|k cs c Hin _ IH]; [auto|]. intros D. apply IH. cbn [strip deeps] in D. rewrite deep_node in D.
  destruct D as [[_ D] _]. clear -Hin D. induction cs as [|c' cs IHc]; [destruct Hin|]. cbn [flat_map] in D.
  apply deeps_app in D as [D1 D2]. destruct Hin as [->|Hin]; auto.
Qed.
Lemma quiet_node t g k cs : tlen t < u32_bound -> parse_text t = Ok (g, []) -> inside (GNode k cs) g ->
  node_form k (flat_map strip cs).
Proof.
  intros Hs P H. destruct (lenient_parse false t g ltac:(discriminate) Hs P) as (f & ws & L & E & _).
  assert (D : deeps (strip g)).
  { rewrite E. cbn [deeps]. rewrite deep_node. split; [split; [exact I|exact (lenient_deep _ _ L)]|exact I]. }
  apply (inside_deep _ _ H) in D. cbn [strip deeps] in D. rewrite deep_node in D. apply D.
Qed.

(** the accessors look at the parts only *)
Lemma token_of_parts k0 cs k : is_trivia k = false -> token (GNode k0 cs) k = token (GNode k0 (parts cs)) k.
Proof. intros H. exact (token_parts cs k H). Qed.
Lemma children_of_parts {N} (cast : green -> option N) k0 cs : children cast (GNode k0 cs) = children cast (GNode k0 (parts cs)).
Proof. unfold children, node_children. cbn [gchildren]. rewrite nodes_parts. reflexivity. Qed.
Lemma child_of_parts {N} (cast : green -> option N) k0 cs : child cast (GNode k0 cs) = child cast (GNode k0 (parts cs)).
Proof. unfold child, node_children. cbn [gchildren]. rewrite nodes_parts. reflexivity. Qed.

(** the parts, from the tree without trivia *)
Definition part_of (t : tree) (g : green) : Prop :=
  match t with
  | TNode k cs => exists gs, g = GNode k gs /\ flat_map strip gs = cs
  | TTok k => exists w, g = GTok k w
  | TErr _ => False
  end.
Lemma parts_of cs : forall ts, flat_map strip cs = ts -> Forall2 part_of ts (parts cs).
Proof.
  induction cs as [|g cs IH]; intros ts <-; [constructor|]. cbn [flat_map]. destruct g as [k gs|k w]; cbn [strip parts filter]; fold (parts cs).
  - constructor; [exists gs; auto|]. apply IH. reflexivity.
  - destruct (is_trivia k); cbn [negb app]; [apply IH; reflexivity|]. constructor; [exists w; reflexivity|]. apply IH. reflexivity.
Qed.
Ltac parts_shape :=
  try match goal with H : Forall2 part_of _ (parts ?cs) |- _ => revert H; generalize (parts cs); intros ? H end;
  repeat match goal with
  | H : Forall2 part_of [] _ |- _ => inversion H; subst; clear H
  | H : Forall2 part_of (_ :: _) _ |- _ => inversion H; subst; clear H
  | H : part_of (TTok _) _ |- _ => destruct H as [? ->]
  | H : part_of (TNode _ _) _ |- _ => destruct H as (? & -> & ?)
  | H : part_of name_node _ |- _ => unfold name_node in H
  end.
