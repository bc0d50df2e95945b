(** Property C77: what follows does not change the messages further up. *)
From Coq Require Import String.
From Verif Require Import Base BaseProofs Kinds KindsProofs LexSpec Lexer LexerRuns LexerProofs LexerStateProofs
  Parser Grammar Sink TreeSpec GreenSpec SyntaxSpec ShapeSpec SharedSpec SharedProofs PropLexer PropParser PropSyntax PropShape PropUnknown.
Local Open Scope N_scope.

(** ** C77.  The files [t] and [t'] begin with the same tokens [a].  If the parser
    returns for both, it gives the same messages in the same order before the last
    but one token of [a], and only messages that stand behind it can differ. *)
Theorem C77_messages_shared : forall t t' a b b' g errs g' errs',
  tlen t < u32_bound -> tlen t' < u32_bound ->
  token_stream t (a ++ b) -> token_stream t' (a ++ b') -> ascii_literals (a ++ b) -> ascii_literals (a ++ b') ->
  parse_text t = Ok (g, errs) -> parse_text t' = Ok (g', errs') ->
  agree_before (a ++ b) (a ++ b') (length (proper a) - 2) errs errs'.
Proof. exact shared_main. Qed.

(** So a message that one file has there, and the other has not, cannot be. *)
Theorem C77_message_in_both : forall t t' a b b' g errs g' errs' e,
  tlen t < u32_bound -> tlen t' < u32_bound ->
  token_stream t (a ++ b) -> token_stream t' (a ++ b') -> ascii_literals (a ++ b) -> ascii_literals (a ++ b') ->
  parse_text t = Ok (g, errs) -> parse_text t' = Ok (g', errs') -> In e errs ->
  (exists i, (length (proper a) <= i + 2)%nat /\ stands_after (a ++ b) i e) \/
  (exists e' i, In e' errs' /\ se_msg e' = se_msg e /\ stands_after (a ++ b) i e /\ stands_after (a ++ b') i e').
Proof.
  intros t t' a b b' g errs g' errs' e L L' S S' A A' P P' I.
  destruct (C77_messages_shared _ _ _ _ _ _ _ _ _ L L' S S' A A' P P') as (ea & ea' & la & la' & -> & -> & F & G & _).
  apply in_app_iff in I as [I|I].
  - right. clear - F I. induction F as [|x x' ea ea' (M & i & H & H') F IH]; [destruct I|]. destruct I as [->|I].
    + exists x', i. split; [left; reflexivity|]. auto.
    + destruct (IH I) as (e' & j & J & R). exists e', j. split; [right; exact J|exact R].
  - left. rewrite Forall_forall in G. destruct (G e I) as (i & Li & H). exists i. split; [lia|exact H].
Qed.

(** Two files with a mistake in common, and another one further down in one of
    them. *)
Definition first_file : text := `"script { fun main() { a.; let x = 1; } }".
Definition second_file : text := `"script { fun main() { a.; let x = ; } }".
Definition in_common : list (kind * text) := firstn 22 (tokens_of first_file).
Example shared_files :
  tlen first_file < u32_bound /\ tlen second_file < u32_bound /\
  token_stream first_file (in_common ++ skipn 22 (tokens_of first_file)) /\
  token_stream second_file (in_common ++ skipn 22 (tokens_of second_file)) /\
  ascii_literals (in_common ++ skipn 22 (tokens_of first_file)) /\ ascii_literals (in_common ++ skipn 22 (tokens_of second_file)) /\
  length (proper in_common) = 13%nat /\
  exists g errs g' errs', parse_text first_file = Ok (g, errs) /\ parse_text second_file = Ok (g', errs') /\
    map se_pos errs = [24] /\ map se_pos errs' = [24; 34].
Proof.
  assert (E1 : in_common ++ skipn 22 (tokens_of first_file) = tokens_of first_file) by apply firstn_skipn.
  assert (E2 : in_common ++ skipn 22 (tokens_of second_file) = tokens_of second_file) by (vm_compute; reflexivity).
  assert (A : forall t, forallb (fun p => asciib (snd p)) (tokens_of t) = true -> ascii_literals (tokens_of t)).
  { intros t H. apply Forall_forall. intros p Hp _. rewrite forallb_forall in H. apply asciib_ok, H, Hp. }
  assert (S : forall t ws, cut 1000 t = Some ws -> asciib t = true -> token_stream t ws).
  { intros t ws C B. apply (cut_ok 1000); [exact C|apply asciib_ok; exact B]. }
  rewrite E1, E2. repeat split; try (vm_compute; reflexivity).
  - apply S; vm_compute; reflexivity.
  - apply S; vm_compute; reflexivity.
  - apply A. vm_compute. reflexivity.
  - apply A. vm_compute. reflexivity.
  - destruct (parse_text first_file) as [[g errs]|w|] eqn:P; vm_compute in P; try discriminate P.
    destruct (parse_text second_file) as [[g' errs']|w|] eqn:P'; vm_compute in P'; try discriminate P'.
    exists g, errs, g', errs'. split; [reflexivity|]. split; [reflexivity|]. injection P as <- <-. injection P' as <- <-. vm_compute. split; reflexivity.
Qed.
Print Assumptions C77_messages_shared.
Print Assumptions C77_message_in_both.
