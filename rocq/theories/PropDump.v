(** C83: what the dump of a file, the text the snapshot tests compare, tells
    about its tree. *)
From Coq Require Import String.
From Verif Require Import Base BaseProofs Kinds KindsProofs Sink GreenSpec RecoverSpec PropParser PropRecover Dump DumpSpec DumpProofs.
Local Open Scope N_scope.

Lemma messages_lines t g errs : tlen t < u32_bound -> source_file_parse t = Ok (g, errs) -> parse_text t = Ok (g, errs) /\ plain_messages errs.
Proof.
  intros Hs H. unfold source_file_parse in H. destruct (parse_text t) as [[g0 errs0]| |] eqn:P; cbn [bind] in H; try discriminate.
  destruct (assert_ _) in H; cbn [bind] in H; try discriminate. injection H as -> ->. split; [reflexivity|].
  apply Forall_forall. intros e I. pose proof (C79_messages t g errs e Hs P I) as M.
  assert (X : forallb message all_messages = true) by (vm_compute; reflexivity). rewrite forallb_forall in X. apply X. exact M.
Qed.

(** Every file that is parsed has a dump. *)
Theorem C83_dump_exists : forall plain t g errs, source_file_parse t = Ok (g, errs) -> exists d, file_dump plain t = Ok d.
Proof. intros plain t g errs H. unfold file_dump. rewrite H. cbn [bind]. apply dump_total. Qed.

(** Two files have the same dump if and only if their messages are the same and
    their trees are, up to the ends of tokens of 25 bytes and more. *)
Theorem C83_same_dump_iff : forall plain t u g errs g' errs', tlen t < u32_bound -> tlen u < u32_bound ->
  source_file_parse t = Ok (g, errs) -> source_file_parse u = Ok (g', errs') ->
  (file_dump plain t = file_dump plain u <-> alike g g' /\ errs = errs').
Proof.
  intros plain t u g errs g' errs' Ht Hu A B. unfold file_dump. rewrite A, B. cbn [bind].
  apply dump_iff; [exact (proj2 (messages_lines t g errs Ht A))|exact (proj2 (messages_lines u g' errs' Hu B))].
Qed.

(** A file whose tokens are all shorter than that is told apart from all other
    files. *)
Theorem C83_short_tokens : forall plain t u g errs, tlen t < u32_bound -> tlen u < u32_bound ->
  source_file_parse t = Ok (g, errs) -> Forall (fun l => tlen (snd l) < 25) (gleaves g) ->
  file_dump plain t = file_dump plain u -> t = u.
Proof.
  intros plain t u g errs Ht Hu A S E.
  destruct (source_file_parse u) as [[g' errs']| |] eqn:B.
  - pose proof E as E'. apply (C83_same_dump_iff plain t u g errs g' errs' Ht Hu A B) in E' as [L ->].
    apply (alike_short g g' S) in L as <-.
    destruct (messages_lines t g errs' Ht A) as [P _]. destruct (messages_lines u g errs' Hu B) as [Q _].
    rewrite <- (C19_lossless t g errs' Ht P). apply (C19_lossless u g errs' Hu Q).
  - destruct (C83_dump_exists plain t g errs A) as [d D]. rewrite E in D. unfold file_dump in D. rewrite B in D. discriminate D.
  - destruct (C83_dump_exists plain t g errs A) as [d D]. rewrite E in D. unfold file_dump in D. rewrite B in D. discriminate D.
Qed.
Print Assumptions C83_dump_exists.
Print Assumptions C83_same_dump_iff.
Print Assumptions C83_short_tokens.

(** Two comments that differ at the end only: the files have the same dump. *)
Definition ascii (c : N) : bool := (32 <=? c) && (c <? 127).
Definition long_a : text := `"// a long remark, version a".
Definition long_b : text := `"// a long remark, version b".
Example long_comments : long_a <> long_b /\ file_dump ascii long_a = file_dump ascii long_b /\
  file_dump ascii long_a = Ok (unlines [`"SOURCE_FILE@0..27"; `"  COMMENT@0..27 ""// a long remark, ver ..."""]).
Proof. split; [discriminate|]. split; vm_compute; reflexivity. Qed.
(** A file with a mistake, with short tokens and an escaped line break *)
Definition small : text := `"module M" ++ [10] ++ `"{ fun f( }".
Definition small_result := Eval vm_compute in source_file_parse small.
Example small_meets : tlen small < u32_bound /\ exists g errs, source_file_parse small = Ok (g, errs) /\
  Forall (fun l => tlen (snd l) < 25) (gleaves g) /\ errs <> [].
Proof.
  split; [vm_compute; reflexivity|].
  assert (R : source_file_parse small = small_result) by (vm_compute; reflexivity). rewrite R. unfold small_result.
  eexists _, _. split; [reflexivity|]. split; [|discriminate].
  apply Forall_forall. intros l I. repeat (destruct I as [<-|I]; [vm_compute; reflexivity|]). destruct I.
Qed.
Example small_dump : file_dump ascii small = Ok (unlines [
  `"SOURCE_FILE@0..19";
  `"  MODULE_DEF@0..19";
  `"    MODULE_KW@0..6 ""module""";
  `"    WHITESPACE@6..7 "" """;
  `"    NAME@7..8";
  `"      IDENT@7..8 ""M""";
  `"    WHITESPACE@8..9 ""\n""";
  `"    ITEM_LIST@9..19";
  `"      L_BRACE@9..10 ""{""";
  `"      WHITESPACE@10..11 "" """;
  `"      FUNCTION_DEF@11..17";
  `"        FUN_KW@11..14 ""fun""";
  `"        WHITESPACE@14..15 "" """;
  `"        NAME@15..16";
  `"          IDENT@15..16 ""f""";
  `"        PARAM_LIST@16..17";
  `"          L_PAREN@16..17 ""(""";
  `"      WHITESPACE@17..18 "" """;
  `"      R_BRACE@18..19 ""}""";
  `"error 17..17: expected value parameter";
  `"error 17..17: expected R_PAREN";
  `"error 17..17: expected a block"]).
Proof. vm_compute. reflexivity. Qed.
