(** Property C82: the rest of a file is read as if it stood alone. *)
From Coq Require Import String.
From Verif Require Import Base BaseProofs Kinds KindsProofs LexSpec Parser Grammar Sink TreeSpec GreenSpec SyntaxSpec ShapeSpec ShapeProofs UnknownSpec SharedSpec ReblankProofs
  RestProofs PropLexer PropParser PropSyntax PropShape PropUnknown PropShared.
Local Open Scope N_scope.

(** ** C82.  The tokens of the file [t] are [a] followed by [b], and [b] begins with
    a token that is no blank or comment.  The items [f] of the tree have as many
    tokens as [a], so that [b] is the text of the other items [r].  Then the text of
    [b] alone is parsed, its tree holds the items [r], and its messages are the
    messages of [t] behind [a]: in the same order, each between the same tokens. *)
Theorem C82_rest_alone : forall t a b f r g errs,
  tlen t < u32_bound -> token_stream t (a ++ b) -> ascii_literals (a ++ b) ->
  parse_text t = Ok (g, errs) -> strip g = [TNode SOURCE_FILE (f ++ r)] -> length (flat_map leaves f) = length (proper a) ->
  proper a <> [] -> (exists p b', b = p :: b' /\ is_trivia (fst p) = false) ->
  exists gb errsb early late,
    parse_text (concat (map snd b)) = Ok (gb, errsb) /\ strip gb = [TNode SOURCE_FILE r] /\ errs = early ++ late /\
    Forall (fun e => exists i, (i <= length (proper a))%nat /\ stands_after (a ++ b) i e) early /\
    Forall2 (fun e e' => se_msg e = se_msg e' /\ exists i, stands_after (a ++ b) (length (proper a) + i) e /\ stands_after b i e') late errsb.
Proof.
  intros t a b f r g errs L S A P E F N (p & b' & -> & T).
  destruct (rest_main t a (p :: b') f r g errs L S A P E F N ltac:(discriminate) T) as (gb & eb & ea & la & H1 & H2 & H3 & H4 & H5 & _).
  exists gb, eb, ea, la. auto.
Qed.

(** So what stands before does not matter: two files that end in the same items
    have the same trees and the same messages there. *)
Theorem C82_same_end : forall t t' a a' b f r g errs f' r' g' errs',
  tlen t < u32_bound -> token_stream t (a ++ b) -> ascii_literals (a ++ b) ->
  tlen t' < u32_bound -> token_stream t' (a' ++ b) -> ascii_literals (a' ++ b) ->
  parse_text t = Ok (g, errs) -> strip g = [TNode SOURCE_FILE (f ++ r)] -> length (flat_map leaves f) = length (proper a) ->
  parse_text t' = Ok (g', errs') -> strip g' = [TNode SOURCE_FILE (f' ++ r')] -> length (flat_map leaves f') = length (proper a') ->
  proper a <> [] -> proper a' <> [] -> (exists p b', b = p :: b' /\ is_trivia (fst p) = false) ->
  r = r' /\ exists early late early' late', errs = early ++ late /\ errs' = early' ++ late' /\
    Forall (fun e => exists i, (i <= length (proper a))%nat /\ stands_after (a ++ b) i e) early /\
    Forall (fun e => exists i, (i <= length (proper a'))%nat /\ stands_after (a' ++ b) i e) early' /\
    map se_msg late = map se_msg late'.
Proof.
  intros t t' a a' b f r g errs f' r' g' errs' L S A L' S' A' P E F P' E' F' N N' B.
  destruct (C82_rest_alone _ _ _ _ _ _ _ L S A P E F N B) as (gb & eb & ea & la & Pb & Eb & -> & Fa & Fl).
  destruct (C82_rest_alone _ _ _ _ _ _ _ L' S' A' P' E' F' N' B) as (gb' & eb' & ea' & la' & Pb' & Eb' & -> & Fa' & Fl').
  rewrite Pb in Pb'. injection Pb' as <- <-. rewrite Eb in Eb'. injection Eb' as <-. split; [reflexivity|].
  assert (M : forall (R : syntax_error -> syntax_error -> Prop) l l', Forall2 (fun e e' => se_msg e = se_msg e' /\ R e e') l l' -> map se_msg l = map se_msg l').
  { intros R l l' H. induction H as [|x y l l' [H _] _ IH]; [reflexivity|]. cbn [map]. rewrite H, IH. reflexivity. }
  exists ea, la, ea', la'. split; [reflexivity|]. split; [reflexivity|]. split; [exact Fa|]. split; [exact Fa'|].
  rewrite (M _ _ _ Fl), (M _ _ _ Fl'). reflexivity.
Qed.

(** In particular, behind the items [f] of a correct program with the tokens [a]
    anything is read as if it stood alone, and all messages are messages about it. *)
Theorem C82_behind_correct_items : forall t a b f g errs,
  token_stream t (a ++ b) -> ascii_strings t -> tlen t < u32_bound -> ~ comment_in_the_way (a ++ b) -> ~ glued (a ++ b) ->
  gen File f -> Forall2 stands_for (flat_map leaves f) (proper a) -> N.of_nat (length (proper a)) <= 1970 ->
  proper a <> [] -> (exists p b', b = p :: b' /\ is_trivia (fst p) = false) -> parse_text t = Ok (g, errs) ->
  exists gb errsb r, parse_text (concat (map snd b)) = Ok (gb, errsb) /\ strip gb = [TNode SOURCE_FILE r] /\ strip g = [TNode SOURCE_FILE (f ++ r)] /\
    Forall2 (fun e e' => se_msg e = se_msg e' /\ exists i, stands_after (a ++ b) (length (proper a) + i) e /\ stands_after b i e') errs errsb.
Proof.
  intros t a b f g errs S A L C G Gf F Ln N (p & b' & -> & T) PT.
  assert (Al : ascii_literals (a ++ p :: b')).
  { pose proof (stream_lexemes _ _ S) as Lx. apply Forall_forall. intros [k w] Hp E. cbn [fst snd] in *. subst k.
    rewrite Forall_forall in Lx. specialize (Lx _ Hp). cbn [fst snd] in Lx. pose proof (stream_all _ _ S) as W.
    apply in_split in Hp as (l1 & l2 & W2). rewrite W2, map_app, concat_app in W. cbn [map concat snd] in W.
    eapply A; [exact W|exact Lx]. }
  apply (behind_correct t a (p :: b') f g errs); auto. discriminate.
Qed.

(** A file with a mistake in its first item and another in its second one. *)
Definition two_items : text := `"module M { struct } script { fun main() { let x = ; } }".
Definition item_one : list (kind * text) := firstn 10 (tokens_of two_items).
Definition item_two : list (kind * text) := skipn 10 (tokens_of two_items).
Example two_items_split :
  tlen two_items < u32_bound /\ token_stream two_items (item_one ++ item_two) /\ ascii_literals (item_one ++ item_two) /\
  proper item_one <> [] /\ (exists p b', item_two = p :: b' /\ is_trivia (fst p) = false) /\
  exists g errs f r, parse_text two_items = Ok (g, errs) /\ strip g = [TNode SOURCE_FILE ([f] ++ [r])] /\
    length (flat_map leaves [f]) = length (proper item_one) /\ (2 <= length errs)%nat.
Proof.
  assert (E1 : item_one ++ item_two = tokens_of two_items) by apply firstn_skipn.
  assert (A : forall t, forallb (fun p => asciib (snd p)) (tokens_of t) = true -> ascii_literals (tokens_of t)).
  { intros t H. apply Forall_forall. intros p Hp _. rewrite forallb_forall in H. apply asciib_ok, H, Hp. }
  assert (S : forall t ws, cut 1000 t = Some ws -> asciib t = true -> token_stream t ws).
  { intros t ws C B. apply (cut_ok 1000); [exact C|apply asciib_ok; exact B]. }
  rewrite E1. split; [vm_compute; reflexivity|]. split; [apply S; vm_compute; reflexivity|]. split; [apply A; vm_compute; reflexivity|].
  split; [vm_compute; discriminate|]. split; [vm_compute; eauto|].
  destruct (parse_text two_items) as [[g errs]|w|] eqn:P; vm_compute in P; try discriminate P. injection P as <- <-.
  eexists _, _, _, _. split; [reflexivity|]. split; [vm_compute; reflexivity|]. split; [vm_compute; reflexivity|]. vm_compute. repeat constructor.
Qed.
(** A correct module, and a script with a mistake. *)
Definition good_then_bad : text := `"module M { } script { fun main() { let x = ; } }".
Definition good : list (kind * text) := firstn 8 (tokens_of good_then_bad).
Definition bad : list (kind * text) := skipn 8 (tokens_of good_then_bad).
Definition good_items : list tree := [TNode MODULE_DEF [TTok MODULE_KW; name_node; TNode ITEM_LIST [TTok L_BRACE; TTok R_BRACE]]].
Example good_then_bad_split :
  tlen good_then_bad < u32_bound /\ token_stream good_then_bad (good ++ bad) /\ ascii_strings good_then_bad /\
  ~ comment_in_the_way (good ++ bad) /\ ~ glued (good ++ bad) /\ gen File good_items /\
  Forall2 stands_for (flat_map leaves good_items) (proper good) /\ N.of_nat (length (proper good)) <= 1970 /\
  proper good <> [] /\ (exists p b', bad = p :: b' /\ is_trivia (fst p) = false) /\
  exists g errs, parse_text good_then_bad = Ok (g, errs) /\ errs <> [].
Proof.
  assert (E1 : good ++ bad = tokens_of good_then_bad) by apply firstn_skipn. rewrite E1.
  split; [vm_compute; reflexivity|]. split; [apply (cut_ok 1000); [vm_compute; reflexivity|apply asciib_ok; vm_compute; reflexivity]|].
  split; [apply C18_ascii_in_scope, asciib_ok; vm_compute; reflexivity|]. split; [apply no_comment_ok; vm_compute; reflexivity|].
  split; [apply no_colons_ok; vm_compute; reflexivity|]. split.
  { apply g_file; [|constructor]. apply g_top_module, g_module, (g_module_items []). constructor. }
  split; [vm_compute; repeat (apply Forall2_cons; [reflexivity|]); apply Forall2_nil|]. split; [vm_compute; discriminate|].
  split; [vm_compute; discriminate|]. split; [vm_compute; eauto|].
  destruct (parse_text good_then_bad) as [[g errs]|w|] eqn:P; vm_compute in P; try discriminate P. injection P as <- <-.
  eexists _, _. split; [reflexivity|discriminate].
Qed.
Print Assumptions C82_rest_alone.
Print Assumptions C82_behind_correct_items.
Print Assumptions C82_same_end.
