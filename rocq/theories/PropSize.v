(** C48, about size: no file is accepted that is larger than a fixed bound. *)
From Coq Require Import String.
From Verif Require Import Base BaseProofs Kinds KindsProofs LexSpec Lexer LexerRuns LexerProofs LexerStateProofs   Parser Grammar Sink TreeSpec GreenSpec ParseProofs ShapeSpec ShapeProofs StreamProofs ReblankProofs PropLexer PropParser PropSyntax SizeProofs PropShape.
Local Open Scope N_scope.

(** Tokens other than blanks, comments, literals and the prefix operators [!], [*]
    and [-]: names, keywords, brackets, separators and most operators. *)
Definition weighty (p : kind * text) : bool :=
  negb (is_trivia (fst p)) &&
  negb (existsb (kind_eqb (fst p)) [TRUE_KW; FALSE_KW; INTEGER_NUMBER; HEX_STRING; BYTE_STRING; STAR; BANG; MINUS]).

(** Whatever it says, a file with more than 10 001 such tokens is not parsed
    without messages: the parser stops or reports something. *)
Theorem C48_no_large_file_is_accepted : forall t ws g,
  tlen t < u32_bound -> token_stream t ws -> ascii_literals ws -> parse_text t = Ok (g, []) ->
  N.of_nat (length (filter weighty ws)) <= 10001.
Proof.
  intros t ws g Hs T A P. pose proof (size_limit t ws g Hs T A P) as L.
  erewrite (filter_ext weighty tolled); [exact L|]. intros [k w]. unfold weighty, tolled, toll_free. cbn [fst]. now rewrite negb_orb.
Qed.

(** ** The hypotheses are met *)
Definition accepted_text : text := `"module M { fun f(x: u8) { g(x, 1 + 2); } }".
Example accepted_case : exists ws g,
  tlen accepted_text < u32_bound /\ token_stream accepted_text ws /\ ascii_literals ws /\ parse_text accepted_text = Ok (g, []) /\
  length (filter weighty ws) = 20%nat.
Proof.
  exists (tokens_of accepted_text). eexists.
  split; [reflexivity|]. split; [apply (cut_ok 1000); [vm_compute; reflexivity|apply asciib_ok; vm_compute; reflexivity]|].
  assert (A : forall t, forallb (fun p => asciib (snd p)) (tokens_of t) = true -> ascii_literals (tokens_of t)).
  { intros t H. apply Forall_forall. intros p Hp _. rewrite forallb_forall in H. apply asciib_ok, H, Hp. }
  split; [apply A; vm_compute; reflexivity|].
  split; [vm_compute; reflexivity|vm_compute; reflexivity].
Qed.

Print Assumptions C48_no_large_file_is_accepted.
