(** Property C81: what follows does not change the constructs further up. *)
From Coq Require Import String.
From Verif Require Import Base BaseProofs Kinds LexSpec Parser Grammar Sink TreeSpec GreenSpec SyntaxSpec ShapeSpec
  KeepSpec KeepProofs PropShared.
Local Open Scope N_scope.

(** ** C81.  The files [t] and [t'] begin with the same tokens [a].  If the parser
    returns for both, then a construct that ends three or more tokens before the
    end of [a] is in the tree of one file exactly when it is in the tree of the
    other: of the same kind, with the same parts, behind the same tokens. *)
Theorem C81_constructs_shared : forall t t' a b b' g errs g' errs' n u,
  tlen t < u32_bound -> tlen t' < u32_bound ->
  token_stream t (a ++ b) -> token_stream t' (a ++ b') -> ascii_literals (a ++ b) -> ascii_literals (a ++ b') ->
  parse_text t = Ok (g, errs) -> parse_text t' = Ok (g', errs') ->
  (n + length (leaves u) + 3 <= length (proper a))%nat ->
  sits n u (strip g) <-> sits n u (strip g').
Proof.
  intros t t' a b b' g errs g' errs' n u L L' S S' A A' P P' E. split; intros H.
  - exact (keep_main _ _ _ _ _ _ _ _ _ _ _ L L' S S' A A' P P' H E).
  - exact (keep_main _ _ _ _ _ _ _ _ _ _ _ L' L S' S A' A P' P H E).
Qed.

(** The tokens and the places of [sits] on a small tree. *)
Example sits_small : forall u,
  sits 1 u [TTok LET_KW; TNode IDENT_PAT [TNode NAME [TTok IDENT]]; TTok SEMICOLON] <->
  u = TNode IDENT_PAT [TNode NAME [TTok IDENT]] \/ u = TNode NAME [TTok IDENT] \/ u = TTok IDENT.
Proof.
  intros u. split.
  - intros H. inversion H as [| |m ? ? ? S Em]; subst. cbn in Em. assert (m = 0%nat) by lia. subst m. clear H Em.
    inversion S as [| ? ? ? ? ? S1|m ? ? ? S1 Em]; subst; [auto| |cbn in Em; lia].
    inversion S1 as [| ? ? ? ? ? S2|m ? ? ? S2 Em]; subst; [auto| |cbn in Em; lia].
    inversion S2 as [| |m ? ? ? S3 Em]; subst; [auto|cbn in Em; lia].
  - change 1%nat with (length (leaves (TTok LET_KW)) + 0)%nat. intros [-> | [-> | ->]]; apply sits_after; repeat constructor.
Qed.

Ltac past k := match goal with |- sits _ ?u (?v :: ?f) => refine (sits_after k u v f _) end.
(** Two files that differ behind the thirteenth token, with different trees, and
    a statement with a mistake in it that both have. *)
Example kept_files :
  exists g errs g' errs', parse_text first_file = Ok (g, errs) /\ parse_text second_file = Ok (g', errs') /\ strip g <> strip g' /\
  exists u, sits 7 u (strip g) /\ (7 + length (leaves u) + 3 <= length (proper in_common))%nat /\
    u = TNode EXPR_STMT [TNode DOT_EXPR [TNode PATH_EXPR [TNode PATH [TNode PATH_SEGMENT [TNode NAME_REF [TTok IDENT]]]]; TTok DOT]; TTok SEMICOLON].
Proof.
  destruct (parse_text first_file) as [[g errs]|w|] eqn:P; vm_compute in P; try discriminate P.
  destruct (parse_text second_file) as [[g' errs']|w|] eqn:P'; vm_compute in P'; try discriminate P'.
  exists g, errs, g', errs'. split; [reflexivity|]. split; [reflexivity|]. injection P as <- <-. injection P' as <- <-.
  split; [vm_compute; discriminate|]. eexists. split; [|split; [|reflexivity]]; [|vm_compute; repeat constructor].
  vm_compute.
  do 2 apply sits_inside. past 6%nat. apply sits_inside. past 5%nat. apply sits_inside.
  past 4%nat. past 3%nat. past 1%nat. apply sits_inside. past 0%nat. apply sits_here.
Qed.
Print Assumptions C81_constructs_shared.
