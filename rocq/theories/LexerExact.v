(** The exact length of the first token, and what lookahead reads.
    Used by PropLexer.v. *)
From Coq Require Import String.
From Verif Require Import Base BaseProofs Kinds KindsProofs LexSpec Lexer LexerRuns LexerProofs LexerStateProofs.
Local Open Scope N_scope.

(** The length of a byte string is counted in characters. *)
Lemma byte_string_form w : lexeme BYTE_STRING w -> exists p b, (p = 120 \/ p = 98) /\ string_body b /\ w = p :: 34 :: b ++ [34].
Proof.
  intros L. destruct (lexeme_kclass _ _ L) as (c & r & E & F).
  destruct F as [K|K|K B S|B S [K|[K _]]|K|B K]; try discriminate K.
  - destruct S as (p & b & Hp & Hb & S). eauto 6.
  - assert (G : forallb (fun p => negb (kind_eqb (snd p) BYTE_STRING)) keywords = true) by (vm_compute; reflexivity).
    rewrite forallb_forall in G. specialize (G _ K). discriminate G.
  - assert (G : forallb (fun p => negb (kind_eqb (snd p) BYTE_STRING)) puncts = true) by (vm_compute; reflexivity).
    rewrite forallb_forall in G. specialize (G _ K). discriminate G.
Qed.

Lemma find_token_bytes p b rest : p = 120 \/ p = 98 -> string_body b ->
  find_token (p :: 34 :: b ++ 34 :: rest) = Ok (BYTE_STRING, N.of_nat (length (p :: 34 :: b ++ [34]))).
Proof.
  intros Hp Hb.
  assert (Hn2 : ~ In 10 ((p :: 34 :: b) ++ [34])).
  { cbn [app In]. rewrite in_app_iff. cbn [In]. pose proof (string_body_no_lf b Hb). intuition lia. }
  destruct (first_line_app (p :: 34 :: b) 34 rest Hn2) as [line Hl]; [unfold cCR; lia|].
  cbn [app] in Hl.
  assert (U : tlen [p; 34] = 2) by (destruct Hp as [-> | ->]; reflexivity).
  assert (Hs : slice_from (p :: 34 :: b ++ 34 :: line) 2 = Ok (b ++ 34 :: line)).
  { rewrite <- U. apply (slice_from_app [p; 34] (b ++ 34 :: line)). }
  assert (L : N.of_nat (length (p :: 34 :: b ++ [34])) = 2 + (0 + N.of_nat (length b)) + 1).
  { cbn [length]. rewrite app_length. cbn [length]. lia. }
  rewrite L. unfold find_token. destruct Hp as [-> | ->].
  - change (is_space 120) with false. change (120 =? 47) with false. change (is_digit 120) with false.
    change (is_name_start 120) with true. cbn [andb].
    replace (starts_with (120 :: 34 :: b ++ 34 :: rest) [120; 34]) with true
      by (symmetry; apply starts_with_spec; eexists; reflexivity). cbn [orb].
    rewrite Hl, Hs. cbn [bind]. rewrite get_string_len_complete by exact Hb. reflexivity.
  - change (is_space 98) with false. change (98 =? 47) with false. change (is_digit 98) with false.
    change (is_name_start 98) with true. cbn [andb].
    replace (starts_with (98 :: 34 :: b ++ 34 :: rest) [98; 34]) with true
      by (symmetry; apply starts_with_spec; eexists; reflexivity). rewrite orb_true_r.
    rewrite Hl, Hs. cbn [bind]. rewrite get_string_len_complete by exact Hb. reflexivity.
Qed.

Lemma find_token_exact t k n : find_token t = Ok (k, n) -> t <> [] ->
  exists w, longest_lexeme t w /\ lexeme k w /\
    n = if kind_eqb k BYTE_STRING then N.of_nat (length w) else tlen w.
Proof.
  intros F Ht. destruct (find_token_spec _ _ _ F Ht) as (w & L & Lx & Hn).
  exists w. split; [exact L|]. split; [exact Lx|]. destruct (kind_eqb k BYTE_STRING) eqn:K.
  - apply kind_eqb_eq in K. subst k. destruct (byte_string_form _ Lx) as (p & b & Hp & Hb & ->).
    destruct L as [[rest ->] _]. cbn [app] in F. rewrite <- app_assoc in F. cbn [app] in F.
    rewrite (find_token_bytes _ _ _ Hp Hb) in F. injection F as <-. reflexivity.
  - destruct Hn as [Hn|[-> _]]; [exact Hn|discriminate].
Qed.

(** ** Lookahead *)
Lemma trim_start_spec t : exists s, t = s ++ trim_start t /\ Forall (fun c => is_white_space c = true) s /\
  match trim_start t with c :: _ => is_white_space c = false | [] => True end.
Proof.
  induction t as [|c t IH]; [exists []; repeat split; constructor|]. cbn [trim_start].
  destruct (is_white_space c) eqn:W.
  - destruct IH as (s & E & F & G). exists (c :: s). split; [cbn [app]; congruence|]. split; [constructor; auto|exact G].
  - exists []. split; [reflexivity|]. split; [constructor|exact W].
Qed.
Lemma slice_from_split t n r : slice_from t n = Ok r -> exists a, t = a ++ r /\ n = tlen a.
Proof.
  unfold slice_from. destruct (split_at t n) as [[a b]|] eqn:E; [|discriminate].
  intros H. injection H as ->. apply split_at_spec in E as [-> <-]. eauto.
Qed.
Lemma reached_text t lx : reached t lx -> lx_text lx = t.
Proof. intros R. destruct (reached_inv _ _ R) as (ws & rest & k & len & I). exact (li_text _ _ _ _ _ _ I). Qed.
