(** Property C54: what a file is parsed to depends on the kinds of its tokens
    only (ShapeSpec.v). *)
From Coq Require Import String.
From Verif Require Import Base BaseProofs Kinds KindsProofs LexSpec Lexer LexerRuns LexerProofs LexerStateProofs
  Parser Grammar Sink TreeSpec GreenSpec ParseProofs ShapeSpec ShapeProofs StreamProofs ReblankProofs PropLexer PropParser PropSyntax.
Local Open Scope N_scope.

(** ** C54.  Two files whose tokens (blanks and comments included) have the
    same kinds, and agree on which of them begin with "0x", are parsed to trees
    of the same shape with the same messages at the same tokens, or both bring
    the parser down, for the same reason. *)
Theorem C54_structure_depends_on_token_kinds : forall t t' ws ws',
  tlen t < u32_bound -> tlen t' < u32_bound ->
  token_stream t ws -> token_stream t' ws' -> ascii_literals ws -> ascii_literals ws' ->
  Forall2 alike ws ws' -> same_outcome ws ws' (parse_text t) (parse_text t').
Proof. exact shape_main. Qed.

(** Replacing runs of blanks by other runs of blanks: indenting, joining or
    breaking lines where there is a blank already. *)
Theorem C54_blank_runs_do_not_matter : forall t ws ws',
  token_stream t ws -> ascii_literals ws -> Forall2 reblanked ws ws' ->
  let t' := concat (map snd ws') in
  tlen t < u32_bound -> tlen t' < u32_bound ->
  token_stream t' ws' /\ same_outcome ws ws' (parse_text t) (parse_text t').
Proof.
  intros t ws ws' S A F t' Hs Hs'. pose proof (reblank_stream _ _ S _ F) as S'. split; [exact S'|].
  apply shape_main; auto.
  - clear - F A. induction F as [|[k w] [k' w'] ws ws' [E R] F IH]; [constructor|]. inversion A; subst.
    cbn [fst snd] in *. subst k'. constructor; [|apply IH; assumption]. cbn [fst snd].
    destruct (kind_eqb k WHITESPACE) eqn:K; [apply kind_eqb_eq in K; subst; discriminate|]. subst w'. assumption.
  - pose proof (stream_lexemes _ _ S) as L. clear - F L. induction F as [|[k w] [k' w'] ws ws' [E R] F IH]; [constructor|].
    inversion L; subst. cbn [fst snd] in *. subst k'. constructor; [|apply IH; assumption]. split; [reflexivity|]. cbn [snd].
    destruct (kind_eqb k WHITESPACE) eqn:K; [|subst w'; reflexivity].
    apply kind_eqb_eq in K; subst k. destruct R as [_ B']. match goal with H : lexeme WHITESPACE w |- _ => destruct (whitespace_form _ H) as [_ B] end.
    split; intros [r E]; subst; exfalso; [inversion B as [|? ? Hb]|inversion B' as [|? ? Hb]]; unfold blank in Hb; lia.
Qed.

(** ** C25, continued.  If the file is a sequence of tokens with ASCII byte
    strings, only a failed assertion (the limit on lookaheads, or [module] being
    required) can bring the parser down: never an unknown token, and never a
    slice outside the text or inside a character. *)
Theorem C25_token_streams_partial : forall t ws w,
  tlen t < u32_bound -> token_stream t ws -> ascii_literals ws -> parse_text t = Panic w -> w = PAssert.
Proof. intros t ws w Hs T A H. exact (stream_panics t ws w Hs T A H). Qed.

(** Conversely every file that is not a sequence of tokens brings it down. *)
Theorem C25_other_files_panic_partial : forall t,
  tlen t < u32_bound -> ascii_strings t -> (forall ws, ~ token_stream t ws) -> exists w, parse_text t = Panic w.
Proof.
  intros t Hs A N. pose proof (parse_cases t Hs) as C. destruct (parse_text t) as [[g errs]|w|] eqn:E; [|eauto|destruct C].
  destruct (C19_leaves_are_the_tokens t g errs Hs A E) as (ws & S & _). destruct (N ws S).
Qed.

(** ** The hypotheses are met *)
Definition one : text := `"module M { // first
  fun f(): u8 { let = a + 12; }
  fun h(x) { }
}".
Definition two : text := `"module Longer
{
	// a longer one
 fun g():   u64 { let =    b1 +
 0;

 }
fun h_2(y_) {  }
}".
Definition tokens_of (t : text) : list (kind * text) := match cut 1000 t with Some ws => ws | None => [] end.

Lemma forall2b {A} (f : A -> A -> bool) (R : A -> A -> Prop) : (forall a b, f a b = true -> R a b) ->
  forall l l', (fix go l l' := match l, l' with [], [] => true | a :: r, b :: r' => f a b && go r r' | _, _ => false end) l l' = true ->
  Forall2 R l l'.
Proof.
  intros H. induction l as [|a l IH]; intros [|b l'] E; try discriminate; [constructor|].
  apply andb_true_iff in E as [E1 E2]. constructor; auto.
Qed.

Example sample_pair : tlen one < u32_bound /\ tlen two < u32_bound /\
  token_stream one (tokens_of one) /\ token_stream two (tokens_of two) /\
  ascii_literals (tokens_of one) /\ ascii_literals (tokens_of two) /\
  Forall2 alike (tokens_of one) (tokens_of two) /\ (30 < length (tokens_of one))%nat /\
  exists g errs, parse_text one = Ok (g, errs) /\ (2 <= length errs)%nat.
Proof.
  split; [vm_compute; reflexivity|]. split; [vm_compute; reflexivity|].
  split; [apply (cut_ok 1000); [vm_compute; reflexivity|apply asciib_ok; vm_compute; reflexivity]|].
  split; [apply (cut_ok 1000); [vm_compute; reflexivity|apply asciib_ok; vm_compute; reflexivity]|].
  assert (A : forall t, forallb (fun p => asciib (snd p)) (tokens_of t) = true -> ascii_literals (tokens_of t)).
  { intros t H. apply Forall_forall. intros p Hp _. rewrite forallb_forall in H. apply asciib_ok, H, Hp. }
  split; [apply A; vm_compute; reflexivity|]. split; [apply A; vm_compute; reflexivity|].
  split; [|split; [apply Nat.ltb_lt; vm_compute; reflexivity|]].
  - apply (forall2b (fun p q => kind_eqb (fst p) (fst q) && Bool.eqb (starts_with (snd p) (`"0x")) (starts_with (snd q) (`"0x")))).
    + intros p q H. apply andb_true_iff in H as [H1 H2]. apply kind_eqb_eq in H1. apply Bool.eqb_prop in H2.
      split; [exact H1|]. unfold looks_hex. rewrite <- !starts_with_spec, H2. reflexivity.
    + vm_compute. reflexivity.
  - eexists _, _. split; [vm_compute; reflexivity|]. apply Nat.leb_le. reflexivity.
Qed.

Example sample_reblanked : exists ws', Forall2 reblanked (tokens_of one) ws' /\
  concat (map snd ws') = `"module	M
{ // first
 fun f():
u8 { let = a + 12; } fun h(x) { } }".
Proof.
  exists (tokens_of (`"module	M
{ // first
 fun f():
u8 { let = a + 12; } fun h(x) { } }")). split; [|vm_compute; reflexivity].
  vm_compute. repeat (apply Forall2_cons || apply Forall2_nil); (split; [reflexivity|]); cbn;
    first [reflexivity | split; [discriminate|repeat (apply Forall_cons; [unfold blank; lia|]); apply Forall_nil]].
Qed.

(** a sequence of tokens that fails an assertion, and a text that is none *)
Example sample_panics : token_stream (`"address 0x1 { fun }") (tokens_of (`"address 0x1 { fun }")) /\
  parse_text (`"address 0x1 { fun }") = Panic PAssert /\
  (forall ws, ~ token_stream (`"module M $") ws) /\ ascii_strings (`"module M $").
Proof.
  split; [apply (cut_ok 1000); [vm_compute; reflexivity|apply asciib_ok; vm_compute; reflexivity]|].
  split; [vm_compute; reflexivity|].
  assert (A : ascii_strings (`"module M $")) by (apply C18_ascii_in_scope, asciib_ok; vm_compute; reflexivity).
  split; [|exact A]. intros ws S.
  assert (L : ascii_literals ws).
  { pose proof (stream_lexemes _ _ S) as L. apply Forall_forall. intros [k w] Hp E. cbn [fst snd] in *. subst k.
    rewrite Forall_forall in L. specialize (L _ Hp). cbn [fst snd] in L.
    assert (T : concat (map snd ws) = `"module M $").
    { clear - S. induction S; [reflexivity|]. cbn [map concat snd]. rewrite IHS. reflexivity. }
    apply in_split in Hp as (l1 & l2 & ->). rewrite map_app, concat_app in T. cbn [map concat snd] in T.
    eapply A; [symmetry; exact T|exact L]. }
  assert (H : PTodo = PAssert); [|discriminate].
  eapply C25_token_streams_partial; [|exact S|exact L|]; vm_compute; reflexivity.
Qed.

Print Assumptions C25_token_streams_partial.
Print Assumptions C25_other_files_panic_partial.
Print Assumptions C54_structure_depends_on_token_kinds.
Print Assumptions C54_blank_runs_do_not_matter.
