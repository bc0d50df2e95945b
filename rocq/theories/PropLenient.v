(** Property C50: a file parsed without an error message is a phrase of the
    grammar of LenientSpec.v, and its tree is the one of that phrase. *)
From Coq Require Import String.
From Verif Require Import Base BaseProofs Kinds KindsProofs LexSpec Lexer LexerRuns LexerProofs LexerStateProofs
  Parser Grammar Sink TreeSpec GreenSpec ParseProofs SyntaxSpec AcceptTop LenientSpec LenientTop GapTop AddressProofs PropLexer PropSyntax.
Local Open Scope N_scope.

(** ** C50.  No error message: the tree is one of the grammar, and its leaves,
    from left to right, are the tokens of the text. *)
Theorem C50_no_errors_means_in_the_grammar : forall t g,
  tlen t < u32_bound -> parse_text t = Ok (g, []) ->
  exists f, lenient File f /\ strip g = [TNode SOURCE_FILE f].
Proof. intros t g Hs P. destruct (lenient_parse false t g ltac:(discriminate) Hs P) as (f & ws & H1 & H2 & _). eauto. Qed.

Theorem C50_phrase_is_the_text : forall t g,
  tlen t < u32_bound -> ascii_strings t -> parse_text t = Ok (g, []) ->
  exists f ws, lenient File f /\ strip g = [TNode SOURCE_FILE f] /\
    token_stream t ws /\ Forall2 stands_for (flat_map leaves f) (proper ws).
Proof.
  intros t g Hs A P. destruct (lenient_parse false t g ltac:(discriminate) Hs P) as (f & ws & H1 & H2 & H3 & H4 & H5).
  destruct (steps_stream _ _ _ H3 eq_refl A) as (ws' & n & -> & St).
  destruct n as [|n].
  - cbn [repeat] in *. rewrite app_nil_r in *. exists f, ws'. do 3 (split; [assumption|]).
    destruct (parse_addresses t g [] f Hs P H2) as (ws2 & S2 & R2 & W).
    assert (ws2 = ws') by (eapply steps_same; [exact S2|exact R2|exact H3|exact H5]). subst ws2. exact (written_stands t ws' _ St W).
  - exfalso. apply Forall_app in H5 as [_ H5]. cbn [repeat] in H5. inversion H5 as [|? ? X _]; subst. apply X. reflexivity.
Qed.

(** What is not in the grammar gets an error message (or stops the parser). *)
Theorem C50_outside_is_reported : forall t g errs,
  tlen t < u32_bound -> parse_text t = Ok (g, errs) ->
  (forall f, lenient File f -> strip g <> [TNode SOURCE_FILE f]) -> errs <> [].
Proof. intros t g errs Hs P N ->. destruct (C50_no_errors_means_in_the_grammar t g Hs P) as (f & H1 & H2). exact (N f H1 H2). Qed.

(** The grammar includes the core language of C48. *)
Theorem C50_includes_the_core : forall x f, gen x f -> lenient x f.
Proof. exact (gen_lenient false). Qed.

(** ** Not every accepted file is in the core language: each relaxed rule is used. *)
Definition accepted (t : text) : bool := match parse_text t with Ok (_, []) => true | _ => false end.
Lemma script_semi_not_core : ~ gen File [TNode SCRIPT_DEF [TTok SCRIPT_KW; TTok SEMICOLON]].
Proof.
  intros G. inversion G; subst. match goal with H : gen TopItem _ |- _ => inversion H; subst end.
  match goal with H : gen Module _ |- _ => inversion H end.
Qed.
Theorem C50_only_core_programs_accepted_refuted :
  ~ (forall t g, tlen t < u32_bound -> parse_text t = Ok (g, []) ->
      exists f, gen File f /\ strip g = [TNode SOURCE_FILE f]).
Proof.
  intros H. set (t := `"script;").
  destruct (H t (GNode SOURCE_FILE [GNode SCRIPT_DEF [GTok SCRIPT_KW (`"script"); GTok SEMICOLON (`";")]])) as (f & G & E);
    [vm_compute; reflexivity|vm_compute; reflexivity|].
  cbn in E. injection E as <-. apply script_semi_not_core. exact G.
Qed.
Example relaxed_script : accepted (`"script;") = true. Proof. vm_compute. reflexivity. Qed.
Example relaxed_bounds : accepted (`"module M { struct S<T:> {} }") = true. Proof. vm_compute. reflexivity. Qed.
Example relaxed_semicolons : accepted (`"script { fun f() { let a = 1 let b a b } }") = true. Proof. vm_compute. reflexivity. Qed.
Example relaxed_parens : accepted (`"script { fun f() { (a b) } }") = true. Proof. vm_compute. reflexivity. Qed.
Example relaxed_field : accepted (`"script { fun f() { S { 1 + 2 } } }") = true. Proof. vm_compute. reflexivity. Qed.
Example relaxed_field_pat : accepted (`"script { fun f() { let S { mut x } = s; } }") = true. Proof. vm_compute. reflexivity. Qed.
(** outside the grammar: reported *)
Example reported_tuple : match parse_text (`"script { fun f() { (a, b) } }") with Ok (_, []) => false | _ => true end = true.
Proof. vm_compute. reflexivity. Qed.

Print Assumptions C50_no_errors_means_in_the_grammar.
Print Assumptions C50_phrase_is_the_text.
Print Assumptions C50_outside_is_reported.
Print Assumptions C50_includes_the_core.
Print Assumptions C50_only_core_programs_accepted_refuted.
