(** Property C79: the trees of all files, however broken, have the forms of one
    grammar. *)
From Coq Require Import String.
From Verif Require Import Base BaseProofs Kinds KindsProofs LexSpec Lexer Parser Grammar Sink TreeSpec GreenSpec SyntaxSpec LenientSpec
  GapSpec RecoverSpec RecoverTop PropLexer PropSyntax.
Local Open Scope N_scope.

(** ** C79.  Whatever the text, if the parser returns then the tree is one of the
    grammar of RecoverSpec.v, which says for every construct what may be missing
    or wrong and what the tree is then.  Its leaves are the tokens of the text,
    and the messages are those it has marks for, each beside its mark. *)
Theorem C79_every_tree : forall t g errs, tlen t < u32_bound -> parse_text t = Ok (g, errs) ->
  exists f, made RFile f /\ strip g = [TNode SOURCE_FILE (flat_map unmarked f)] /\ map se_msg errs = flat_map complaints f /\
    forall ws, token_stream t ws -> ascii_strings t ->
      Forall2 stands_for (flat_map leaves f) (proper ws) /\
      Forall2 (beside ws) (noted 0 f) (map (fun e => (se_msg e, se_pos e)) errs).
Proof. exact made_parse. Qed.

Lemma node_in_tree t g errs k cs : tlen t < u32_bound -> parse_text t = Ok (g, errs) -> within k cs (strip g) -> k <> SOURCE_FILE ->
  exists cs', cs = flat_map unmarked cs' /\ node_parts k cs'.
Proof.
  intros Hs P W N. destruct (made_parse t g errs Hs P) as (f & M & E & _). rewrite E in W.
  inversion W as [? I|k' cs' ? I W']; subst; destruct I as [I|[]].
  - injection I as <- _. contradiction.
  - injection I as <- <-. apply within_unmarked in W' as (cs' & W' & ->). exists cs'. split; [reflexivity|].
    exact (everyf_within _ _ _ _ W' (made_nodes _ _ M)).
Qed.

(** In particular operators bind as they should in broken files too, *)
Theorem C79_operators : forall t g errs cs, tlen t < u32_bound -> parse_text t = Ok (g, errs) ->
  within BIN_EXPR cs (strip g) -> operation cs.
Proof. intros t g errs cs Hs P W. destruct (node_in_tree t g errs _ cs Hs P W) as (cs' & -> & H); [discriminate|exact H]. Qed.
(** definitions have their parts in order, each at most once, *)
Theorem C79_functions : forall t g errs cs, tlen t < u32_bound -> parse_text t = Ok (g, errs) ->
  within FUNCTION_DEF cs (strip g) -> function_parts cs.
Proof. intros t g errs cs Hs P W. destruct (node_in_tree t g errs _ cs Hs P W) as (cs' & -> & H); [discriminate|exact H]. Qed.
Theorem C79_structs : forall t g errs cs, tlen t < u32_bound -> parse_text t = Ok (g, errs) ->
  within STRUCT cs (strip g) -> struct_parts cs.
Proof. intros t g errs cs Hs P W. destruct (node_in_tree t g errs _ cs Hs P W) as (cs' & -> & H); [discriminate|exact H]. Qed.
Theorem C79_modules : forall t g errs cs, tlen t < u32_bound -> parse_text t = Ok (g, errs) ->
  within MODULE_DEF cs (strip g) -> module_parts cs.
Proof. intros t g errs cs Hs P W. destruct (node_in_tree t g errs _ cs Hs P W) as (cs' & -> & H); [discriminate|exact H]. Qed.
(** error nodes hold bare tokens or a block, never a definition, *)
Theorem C79_error_nodes : forall t g errs cs, tlen t < u32_bound -> parse_text t = Ok (g, errs) ->
  within ERROR cs (strip g) -> error_parts cs.
Proof. intros t g errs cs Hs P W. destruct (node_in_tree t g errs _ cs Hs P W) as (cs' & -> & H); [discriminate|exact H]. Qed.
(** and there are only these messages. *)
Theorem C79_messages : forall t g errs e, tlen t < u32_bound -> parse_text t = Ok (g, errs) -> In e errs -> In (se_msg e) all_messages.
Proof.
  intros t g errs e Hs P I. destruct (made_parse t g errs Hs P) as (f & M & _ & E & _).
  assert (X : In (se_msg e) (flat_map complaints f)) by (rewrite <- E; apply in_map; exact I).
  pose proof (made_messages _ _ M) as K. rewrite Forall_forall in K. apply K; [|exact X]. intros m Z. discriminate Z.
Qed.

(** A broken file: its messages, and a product as the right operand of a sum. *)
Definition broken : text := `"module 5 { ; struct S<8> { 5 x u8 } fun f { 1 + x * ]; S { { x; } } } }".
Definition broken_result := Eval vm_compute in parse_text broken.
Example broken_parses : exists g errs, parse_text broken = Ok (g, errs) /\ tlen broken < u32_bound /\
  map se_msg errs = [m_name; m_item; m_semi; m_type_param; m_field_decl; m_comma; m_token COLON; m_params; m_expr; m_a_field].
Proof.
  assert (P : parse_text broken = broken_result) by (vm_compute; reflexivity).
  unfold broken_result in P. do 2 eexists. split; [exact P|]. split; vm_compute; reflexivity.
Qed.
(** A block in the place of a field of a pattern. *)
Definition broken_pattern : text := `"module M { fun f() { let S { { x; }, y } = z; } }".
Example broken_pattern_parses : exists g errs, parse_text broken_pattern = Ok (g, errs) /\ tlen broken_pattern < u32_bound /\ map se_msg errs = [m_pat_ident].
Proof.
  destruct (parse_text broken_pattern) as [[g errs]| |] eqn:E; vm_compute in E; try discriminate E.
  exists g, errs. split; [reflexivity|]. injection E as <- <-. split; vm_compute; reflexivity.
Qed.
Definition path_x : tree := TNode PATH_EXPR [TNode PATH [segment_node]].
Definition number : tree := TNode LITERAL [TTok INTEGER_NUMBER].
Definition sum : list tree := [number; TTok PLUS; TNode BIN_EXPR [path_x; TTok STAR; TNode ERROR [TTok R_BRACK]]].
(** the place of a node *)
Fixpoint at_place (p : list nat) (f : list tree) : option tree :=
  match p with
  | [] => None
  | i :: p => match nth_error f i, p with
      | x, [] => x
      | Some (TNode _ cs), _ => at_place p cs
      | _, _ => None
      end
  end.
Lemma at_within p : forall f k cs, at_place p f = Some (TNode k cs) -> within k cs f.
Proof.
  induction p as [|i p IH]; intros f k cs H; [discriminate H|]. cbn [at_place] in H. destruct (nth_error f i) as [x|] eqn:E.
  - apply nth_error_In in E. destruct x as [k' cs'|k'|m'], p as [|j p]; try discriminate H.
    + injection H as -> ->. apply within_here. exact E.
    + eapply within_below; [exact E|apply IH; exact H].
  - destruct p; discriminate H.
Qed.
Example broken_sum : exists g errs, parse_text broken = Ok (g, errs) /\ within BIN_EXPR sum (strip g) /\
  (exists cs, within FUNCTION_DEF cs (strip g)) /\ (exists cs, within STRUCT cs (strip g)) /\ (exists cs, within MODULE_DEF cs (strip g)) /\
  exists cs, within ERROR cs (strip g).
Proof.
  assert (P : parse_text broken = broken_result) by (vm_compute; reflexivity).
  unfold broken_result in P. do 2 eexists. split; [exact P|].
  split; [apply (at_within [0; 0; 2; 4; 2; 1; 0]%nat)|split; [|split; [|split]]; eexists].
  2: apply (at_within [0; 0; 2; 4]%nat).
  3: apply (at_within [0; 0; 2; 3]%nat).
  4: apply (at_within [0; 0]%nat).
  5: apply (at_within [0; 0; 1]%nat).
  all: vm_compute; reflexivity.
Qed.
(** What is excluded: a sum as the left operand of a product; a function with its block first. *)
Example not_an_operation : ~ operation [TNode BIN_EXPR [path_x; TTok PLUS; path_x]; TTok STAR; path_x].
Proof.
  intros (l & op & r & q & E & Q & L & _). injection E as <- <- <-. specialize (L _ _ _ _ eq_refl eq_refl). cbn in Q. injection Q as <-.
  revert L. vm_compute. auto.
Qed.
Example not_a_function b n : ~ function_parts [TTok FUN_KW; TNode BLOCK_EXPR b; TNode NAME n].
Proof.
  intros (x & ps & r & b' & E & X & P & R & B). injection E as E.
  destruct X as [-> | (k & cs & K & ->)]; [|injection E as <- _ _; cbn in K; intuition discriminate].
  destruct P as [-> | (k & cs & K & ->)]; [|injection E as <- _ _; cbn in K; intuition discriminate].
  destruct R as [-> | (k & cs & K & ->)]; [|injection E as <- _ _; cbn in K; intuition discriminate].
  destruct B as [-> | (k & cs & K & ->)]; discriminate E.
Qed.

Print Assumptions C79_every_tree.
Print Assumptions C79_operators.
Print Assumptions C79_functions.
Print Assumptions C79_structs.
Print Assumptions C79_modules.
Print Assumptions C79_error_nodes.
Print Assumptions C79_messages.
