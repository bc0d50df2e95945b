(** Property C75: exactly the phrases of the grammar of LenientSpec.v are
    accepted, each with its own tree. *)
From Coq Require Import String.
From Verif Require Import Base BaseProofs Kinds KindsProofs LexSpec Lexer LexerRuns LexerProofs LexerStateProofs
  Parser Grammar Sink TreeSpec GreenSpec ParseProofs SyntaxSpec ShapeProofs AcceptTop LenientSpec LenientTop GapSpec GapTop
  ExactProofs AddressProofs PropLexer PropSyntax PropLenient.
Local Open Scope N_scope.

Lemma accepted_exact t ws g : token_stream t ws -> ascii_strings t -> tlen t < u32_bound -> ~ comment_in_the_way ws ->
  parse_text t = Ok (g, []) -> exists f, exact File f /\ strip g = [TNode SOURCE_FILE f] /\ Forall2 stands_for (flat_map leaves f) (proper ws).
Proof.
  intros St A Hs NC P. pose proof (stream_steps _ _ St A) as S.
  destruct (lenient_parse true t g (fun _ => plain_layout t ws S NC) Hs P) as (f & _ & E & T & _).
  exists f. do 2 (split; [assumption|]). destruct (parse_addresses t g [] f Hs P T) as (ws' & S' & R' & W).
  assert (ws' = ws) by (eapply steps_same; [exact S'|exact R'|exact S|exact (stream_no_eof _ _ St)]). subst ws'.
  exact (written_stands t ws _ St W).
Qed.

(** ** C75.  In a layout the parser copes with, a text is parsed without an error
    message and to the tree [f] if and only if [f] is a phrase of the grammar whose
    tokens are those of the text.  The size limit only matters for "if": the tokens
    of the tree and the places where statements or expressions follow each other
    unseparated are at most 1996. *)
Theorem C75_accepted_trees_exactly : forall t ws f,
  token_stream t ws -> ascii_strings t -> tlen t < u32_bound -> ~ comment_in_the_way ws -> ~ glued ws -> extent f <= 1996 ->
  ((exists g, parse_text t = Ok (g, []) /\ strip g = [TNode SOURCE_FILE f]) <->
   exact File f /\ Forall2 stands_for (flat_map leaves f) (proper ws)).
Proof.
  intros t ws f St A Hs NC NG L. split.
  - intros (g & P & S). destruct (accepted_exact t ws g St A Hs NC P) as (f' & E & S' & F). rewrite S in S'. injection S' as <-. auto.
  - intros [E F]. exact (exact_accepted t ws f St A Hs L NC NG E F).
Qed.

(** The size of a tree of the grammar is at most twice the number of its tokens;
    so for texts of at most 998 tokens the grammar decides. *)
Theorem C75_accepted_texts_exactly : forall t ws,
  token_stream t ws -> ascii_strings t -> tlen t < u32_bound -> ~ comment_in_the_way ws -> ~ glued ws ->
  N.of_nat (length (proper ws)) <= 998 ->
  ((exists g, parse_text t = Ok (g, [])) <-> exists f, exact File f /\ Forall2 stands_for (flat_map leaves f) (proper ws)).
Proof.
  intros t ws St A Hs NC NG L. split.
  - intros (g & P). destruct (accepted_exact t ws g St A Hs NC P) as (f & E & _ & F). eauto.
  - intros (f & E & F). destruct (exact_accepted t ws f St A Hs) as (g & P & _); auto; [|eauto].
    pose proof (stuffed_extent f E) as X. rewrite (Forall2_len _ _ _ F) in X. lia.
Qed.

(** Every other text gets at least one error message, or stops the parser. *)
Theorem C75_everything_else_is_reported : forall t ws,
  token_stream t ws -> ascii_strings t -> tlen t < u32_bound -> ~ comment_in_the_way ws ->
  (forall f, exact File f -> ~ Forall2 stands_for (flat_map leaves f) (proper ws)) ->
  forall g errs, parse_text t = Ok (g, errs) -> errs <> [].
Proof.
  intros t ws St A Hs NC N g errs P ->. destruct (accepted_exact t ws g St A Hs NC P) as (f & E & _ & F). exact (N f E F).
Qed.

(** The grammar is unambiguous: a text is at most one phrase. *)
Theorem C75_one_tree : forall t ws f f',
  token_stream t ws -> ascii_strings t -> tlen t < u32_bound -> ~ comment_in_the_way ws -> ~ glued ws ->
  N.of_nat (length (proper ws)) <= 998 ->
  exact File f -> Forall2 stands_for (flat_map leaves f) (proper ws) ->
  exact File f' -> Forall2 stands_for (flat_map leaves f') (proper ws) -> f = f'.
Proof.
  intros t ws f f' St A Hs NC NG L E F E' F'.
  destruct (exact_accepted t ws f St A Hs) as (g & P & S); auto.
  { pose proof (stuffed_extent f E) as X. rewrite (Forall2_len _ _ _ F) in X. lia. }
  destruct (exact_accepted t ws f' St A Hs) as (g' & P' & S'); auto.
  { pose proof (stuffed_extent f' E') as X. rewrite (Forall2_len _ _ _ F') in X. lia. }
  rewrite P in P'. injection P' as <-. rewrite S in S'. injection S' as <-. reflexivity.
Qed.

(** ** Samples *)
(** a text with most of the relaxed rules is accepted, so it is a phrase *)
Definition loose_text : text := `"address 0x1 { module M { struct S<T: > { a: &u8 } } }
script {
  fun f(a: u8): u8 {
    let b = a let mut c (b c) { c = b }
    S { 1 + 2, x: @0x1 } // last
  }
}".
Definition words (t : text) : list (kind * text) := match cut 1000 t with Some ws => ws | None => [] end.
Definition in_scope (t : text) (ws : list (kind * text)) : Prop :=
  token_stream t ws /\ ascii_strings t /\ tlen t < u32_bound /\ ~ comment_in_the_way ws /\ ~ glued ws /\
  N.of_nat (length (proper ws)) <= 998.
Ltac scope := split; [apply (cut_ok 1000); [vm_compute; reflexivity|apply asciib_ok; vm_compute; reflexivity]|];
  split; [apply C18_ascii_in_scope, asciib_ok; vm_compute; reflexivity|]; split; [vm_compute; reflexivity|];
  split; [apply comment_ok; vm_compute; reflexivity|]; split; [apply glued_ok; vm_compute; reflexivity|vm_compute; discriminate].
Lemma decided t ws : in_scope t ws ->
  accepted t = true <-> exists f, exact File f /\ Forall2 stands_for (flat_map leaves f) (proper ws).
Proof.
  intros (St & A & Hs & NC & NG & L). rewrite <- (C75_accepted_texts_exactly t ws St A Hs NC NG L). unfold accepted.
  destruct (parse_text t) as [[g [|e errs]]|w|]; split; try discriminate; eauto; intros [g' X]; try discriminate X.
Qed.
Example loose_in_scope : in_scope loose_text (words loose_text).
Proof. scope. Qed.
Example loose_is_a_phrase : exists f, exact File f /\ Forall2 stands_for (flat_map leaves f) (proper (words loose_text)).
Proof. apply (decided _ _ loose_in_scope). vm_compute. reflexivity. Qed.

(** what is reported is no phrase *)
Definition tuple_text : text := `"script { fun f() { (a, b) } }".
Example tuple_in_scope : in_scope tuple_text (words tuple_text).
Proof. scope. Qed.
Example tuple_is_no_phrase : ~ exists f, exact File f /\ Forall2 stands_for (flat_map leaves f) (proper (words tuple_text)).
Proof. rewrite <- (decided _ _ tuple_in_scope). vm_compute. discriminate. Qed.

(** why comments matter: [let x {}] is a pattern with braces, and with a comment
    in between a name and a block *)
Definition braces (c : string) : text := `"script { fun f() { let x " ++ `c ++ `"
 {} } }".
Example a_comment_changes_the_tree : exists ws ws' g g',
  cut 100 (braces "") = Some ws /\ cut 100 (braces "//") = Some ws' /\ proper ws = proper ws' /\
  parse_text (braces "") = Ok (g, []) /\ parse_text (braces "//") = Ok (g', []) /\ strip g <> strip g'.
Proof.
  do 4 eexists. split; [vm_compute; reflexivity|]. split; [vm_compute; reflexivity|]. split; [vm_compute; reflexivity|].
  split; [vm_compute; reflexivity|]. split; [vm_compute; reflexivity|]. intros X. vm_compute in X. discriminate X.
Qed.

Print Assumptions C75_accepted_trees_exactly.
Print Assumptions C75_accepted_texts_exactly.
Print Assumptions C75_everything_else_is_reported.
Print Assumptions C75_one_tree.
