(** Dumps can be read back: lines, numbers, escaped texts, and trees from their
    entries. *)
From Coq Require Import String.
From Coq Require Import Decimal DecimalN Hexadecimal HexadecimalN.
From Verif Require Import Base BaseProofs Kinds KindsProofs Sink GreenSpec GeneratorCheck Dump DumpSpec.
Local Open Scope N_scope.

(** ** Texts up to a mark *)
Lemma cons_eq {A} (x y : A) a b : x :: a = y :: b -> x = y /\ a = b.
Proof. intros E. injection E; auto. Qed.
Lemma split_first (c : N) a b r s : ~ In c a -> ~ In c b -> a ++ c :: r = b ++ c :: s -> a = b /\ r = s.
Proof.
  revert b. induction a as [|x a IH]; intros [|y b] A B E; cbn [app] in E.
  - injection E as ->. split; reflexivity.
  - injection E as <- _. exfalso. apply B. left; reflexivity.
  - injection E as -> _. exfalso. apply A. left; reflexivity.
  - injection E as -> E. destruct (IH b) as [-> ->]; auto; intros I; [apply A|apply B]; right; exact I.
Qed.
Definition lacks (c : N) (t : text) : bool := forallb (fun x => negb (x =? c)) t.
Lemma lacks_not c t : lacks c t = true -> ~ In c t.
Proof. unfold lacks. intros H I. rewrite forallb_forall in H. specialize (H _ I). rewrite N.eqb_refl in H. discriminate. Qed.
(** ** Numbers *)
Lemma dec_text_range u c : In c (dec_text u) -> 48 <= c <= 57.
Proof. induction u; cbn [dec_text In]; intros [<-|I] || intros []; try lia; auto. Qed.
Lemma dec_text_inj u v : dec_text u = dec_text v -> u = v.
Proof. revert v; induction u; intros v E; destruct v; cbn [dec_text] in E; try discriminate E; try reflexivity; injection E as E; f_equal; auto. Qed.
Lemma decimal_inj n m : decimal n = decimal m -> n = m.
Proof. unfold decimal. intros E. apply dec_text_inj in E. rewrite <- (DecimalN.Unsigned.of_to n), <- (DecimalN.Unsigned.of_to m), E. reflexivity. Qed.
Lemma decimal_lacks n c : c < 48 \/ 57 < c -> ~ In c (decimal n).
Proof. intros H I. apply dec_text_range in I. lia. Qed.
Lemma hex_text_range u c : In c (hex_text u) -> c <= 102.
Proof. induction u; cbn [hex_text In]; intros [<-|I] || intros []; try lia; auto. Qed.
Lemma hex_text_range2 u c : In c (hex_text u) -> 48 <= c.
Proof. induction u; cbn [hex_text In]; intros [<-|I] || intros []; try lia; auto. Qed.
Lemma hex_text_inj u v : hex_text u = hex_text v -> u = v.
Proof. revert v; induction u; intros v E; destruct v; cbn [hex_text] in E; try discriminate E; try reflexivity; injection E as E; f_equal; auto. Qed.
Lemma hexadecimal_of_inj n m : hexadecimal_of n = hexadecimal_of m -> n = m.
Proof.
  unfold hexadecimal_of. intros E. apply hex_text_inj in E.
  rewrite <- (HexadecimalN.Unsigned.of_to n), <- (HexadecimalN.Unsigned.of_to m), E. reflexivity.
Qed.

(** ** Escaped texts *)
Lemma short_escape_inj c d l : short_escape c = Some l -> short_escape d = Some l -> c = d.
Proof.
  unfold short_escape. intros A B.
  repeat match goal with H : (if ?x =? ?n then _ else _) = _ |- _ => destruct (N.eqb_spec x n); [injection H as <-|] end; try discriminate; subst; try reflexivity;
  repeat match goal with H : (if ?x =? ?n then _ else _) = _ |- _ => destruct (N.eqb_spec x n) end; subst; try discriminate; reflexivity.
Qed.
Lemma short_escape_not_u c l : short_escape c = Some l -> l <> 117 /\ l <> 10.
Proof. unfold short_escape. intros A. repeat match goal with H : (if ?x =? ?n then _ else _) = _ |- _ => destruct (N.eqb_spec x n); [injection H as <-; split; discriminate|] end. discriminate. Qed.
Lemma short_escape_none c : short_escape c = None -> c <> 92 /\ c <> 10.
Proof. unfold short_escape. intros A. repeat match goal with H : (if ?x =? ?n then _ else _) = _ |- _ => destruct (N.eqb_spec x n); [discriminate|] end. auto. Qed.
Section Plain.
Context (plain : N -> bool).
Lemma escape_inj c d r s : escape plain c ++ r = escape plain d ++ s -> c = d /\ r = s.
Proof.
  unfold escape. change (`"\u{") with [92; 117; 123]. change (`"}") with [125].
  destruct (short_escape c) as [l|] eqn:C, (short_escape d) as [m|] eqn:D.
  - cbn [app]. intros E. injection E as -> ->. split; [eapply short_escape_inj; eauto|reflexivity].
  - apply short_escape_not_u in C. apply short_escape_none in D. destruct (plain d); cbn [app]; intros E; injection E as E1 E2; exfalso; intuition congruence.
  - apply short_escape_not_u in D. apply short_escape_none in C. destruct (plain c); cbn [app]; intros E; injection E as E1 E2; exfalso; intuition congruence.
  - apply short_escape_none in C. apply short_escape_none in D. destruct (plain c), (plain d); cbn [app].
    + intros E. injection E as -> ->. auto.
    + cbn [app]. intros E. injection E as E1 _; exfalso; intuition congruence.
    + cbn [app]. intros E. injection E as E1 _; exfalso; intuition congruence.
    + cbn [app]. intros E. injection E as E. rewrite <- !app_assoc in E. cbn [app] in E. apply split_first in E as [E ->].
      * split; [apply hexadecimal_of_inj; exact E|reflexivity].
      * intros I. apply hex_text_range in I. lia.
      * intros I. apply hex_text_range in I. lia.
Qed.
Lemma escapes_inj t u : flat_map (escape plain) t = flat_map (escape plain) u -> t = u.
Proof.
  revert u. induction t as [|c t IH]; intros [|d u] E; cbn [flat_map] in E; auto.
  - exfalso. unfold escape in E. destruct (short_escape d); [discriminate E|]. destruct (plain d); discriminate E.
  - exfalso. unfold escape in E. destruct (short_escape c); [discriminate E|]. destruct (plain c); discriminate E.
  - apply escape_inj in E as [-> E]. f_equal. auto.
Qed.
Lemma escape_no_lf c : ~ In 10 (escape plain c).
Proof.
  unfold escape. destruct (short_escape c) as [l|] eqn:C.
  - apply short_escape_not_u in C. intros [I|[I|[]]]; [discriminate I|tauto].
  - apply short_escape_none in C. destruct (plain c).
    + intros [I|[]]. tauto.
    + intros I. rewrite in_app_iff in I. destruct I as [I|I]; [revert I; apply lacks_not; reflexivity|].
      rewrite in_app_iff in I. destruct I as [I|I]; [apply hex_text_range2 in I; lia|revert I; apply lacks_not; reflexivity].
Qed.
Lemma debug_str_inj t u : debug_str plain t = debug_str plain u -> t = u.
Proof. unfold debug_str. cbn [app]. intros E. injection E as E. apply app_inj_tail in E as [E _]. apply escapes_inj; exact E. Qed.
Lemma debug_str_no_lf t : ~ In 10 (debug_str plain t).
Proof.
  unfold debug_str. rewrite !in_app_iff. intros [I|[I|I]]; try (revert I; apply lacks_not; reflexivity).
  apply in_flat_map in I as (c & _ & I). exact (escape_no_lf c I).
Qed.

End Plain.

(** ** The text of a token *)
Lemma split_first_boundary t i : split_at t i = None -> i <= tlen t ->
  exists a c b, t = a ++ c :: b /\ tlen a < i < tlen a + utf8_len c.
Proof.
  revert i. induction t as [|c t IH]; intros i; cbn [split_at tlen].
  - destruct (N.eqb_spec i 0); [discriminate|]. lia.
  - destruct (N.eqb_spec i 0); [discriminate|]. destruct (N.ltb_spec i (utf8_len c)).
    + intros _ _. exists [], c, t. cbn [app tlen]. split; [reflexivity|lia].
    + intros E L. destruct (split_at t (i - utf8_len c)) as [[x y]|] eqn:S; [discriminate|].
      destruct (IH _ S) as (a & d & b & -> & B); [lia|]. exists (c :: a), d, b. cbn [app tlen]. split; [reflexivity|lia].
Qed.
Lemma utf8_len_range c : 1 <= utf8_len c <= 4.
Proof. unfold utf8_len. destruct (c <? 0x80); [lia|]. destruct (c <? 0x800); [lia|]. destruct (c <? 0x10000); lia. Qed.
Lemma last_char (a : text) : a = [] \/ exists b c, a = b ++ [c].
Proof. destruct a using rev_ind; [left; reflexivity|right; eauto]. Qed.
Lemma opening_unique a b t : opening a t -> opening b t -> a = b.
Proof.
  assert (K : forall a b t, opening a t -> opening b t -> tlen a < tlen b -> False).
  { clear a b t. intros a b t ((x & ->) & A1 & A2) ((y & E) & B1 & B2) L.
    apply app_eq_app in E as (l & [[-> _]|[-> _]]); rewrite tlen_app in L; [lia|].
    destruct (last_char l) as [->|(l' & c & ->)]; [cbn in L; lia|].
    specialize (B2 (a ++ l') c). rewrite app_assoc, tlen_app in B2. specialize (B2 eq_refl). lia. }
  intros A B. destruct (N.lt_trichotomy (tlen a) (tlen b)) as [L|[L|L]].
  - destruct (K _ _ _ A B L).
  - destruct A as ((x & ->) & _), B as ((y & E) & _). apply tlen_prefix_inj in E; tauto.
  - destruct (K _ _ _ B A L).
Qed.
Lemma token_text_short t : tlen t < 25 -> token_text t = Ok t.
Proof. unfold token_text. intros H. destruct (N.ltb_spec (tlen t) 25); [reflexivity|lia]. Qed.
Lemma cut_opening t i a b : split_at t i = Some (a, b) -> 21 <= i -> (forall j, 21 <= j < i -> split_at t j = None) -> opening a t.
Proof.
  intros S L N. apply split_at_spec in S as [-> <-]. split; [eauto|]. split; [exact L|].
  intros x c ->. destruct (N.lt_ge_cases (tlen x) 21) as [G|G]; [exact G|].
  specialize (N (tlen x)). rewrite <- app_assoc, split_at_app, tlen_app in N. cbn [tlen] in N. pose proof (utf8_len_range c).
  assert (X : Some (x, [c] ++ b) = None) by (apply N; lia). discriminate X.
Qed.
Lemma token_text_long t : 25 <= tlen t -> exists a, opening a t /\ token_text t = Ok (a ++ `" ...").
Proof.
  unfold token_text. intros H. destruct (N.ltb_spec (tlen t) 25); [lia|]. cbn [cut_at].
  destruct (split_at t 21) as [[a b]|] eqn:S1; [exists a; split; [eapply cut_opening; [exact S1|lia|intros j J; lia]|reflexivity]|].
  destruct (split_at t 22) as [[a b]|] eqn:S2; [exists a; split; [eapply cut_opening; [exact S2|lia|intros j J; replace j with 21 by lia; exact S1]|reflexivity]|].
  destruct (split_at t 23) as [[a b]|] eqn:S3.
  { exists a; split; [|reflexivity]. eapply cut_opening; [exact S3|lia|]. intros j J. destruct (N.eq_dec j 21) as [->|]; [exact S1|]. replace j with 22 by lia. exact S2. }
  destruct (split_at t 24) as [[a b]|] eqn:S4.
  { exists a; split; [|reflexivity]. eapply cut_opening; [exact S4|lia|]. intros j J. destruct (N.eq_dec j 21) as [->|]; [exact S1|].
    destruct (N.eq_dec j 22) as [->|]; [exact S2|]. replace j with 23 by lia. exact S3. }
  exfalso. destruct (split_first_boundary t 24 S4) as (a & c & b & -> & B); [lia|]. pose proof (utf8_len_range c).
  pose proof (split_at_app a (c :: b)) as X.
  assert (J : tlen a = 21 \/ tlen a = 22 \/ tlen a = 23) by lia. destruct J as [J|[J|J]]; rewrite J in X; congruence.
Qed.
Lemma token_text_alike k t u : tlen t = tlen u -> token_text t = token_text u -> alike (GTok k t) (GTok k u).
Proof.
  intros L E. destruct (N.lt_ge_cases (tlen t) 25) as [S|S].
  - rewrite !token_text_short in E by lia. injection E as <-. constructor.
  - destruct (token_text_long t S) as (a & A & Ea). destruct (token_text_long u) as (b & B & Eb); [lia|].
    rewrite Ea, Eb in E. injection E as E. apply app_inv_tail in E as <-. econstructor 3; eauto.
Qed.
Lemma token_text_total t : exists s, token_text t = Ok s.
Proof.
  destruct (N.lt_ge_cases (tlen t) 25) as [S|S]; [rewrite (token_text_short t S); eauto|].
  destruct (token_text_long t S) as (a & _ & ->). eauto.
Qed.

(** ** Lines *)
Lemma kind_name_parts k : lacks 64 (kind_name k) = true /\ lacks 32 (kind_name k) = true /\ lacks 10 (kind_name k) = true /\
  match kind_name k with c :: _ => c <> 101 | [] => False end.
Proof. destruct k; (split; [vm_compute; reflexivity|split; [vm_compute; reflexivity|split; [vm_compute; reflexivity|vm_compute; discriminate]]]). Qed.
Lemma kind_name_inj k k' : kind_name k = kind_name k' -> k = k'.
Proof. intros E. pose proof (kind_of_name_ok k) as A. rewrite E, kind_of_name_ok in A. injection A as ->. reflexivity. Qed.
Definition same (e f : entry) : Prop :=
  en_level e = en_level f /\ en_kind e = en_kind f /\ en_start e = en_start f /\ en_end e = en_end f /\
  match en_text e, en_text f with
  | None, None => True
  | Some t, Some u => token_text t = token_text u
  | _, _ => False
  end.
Definition body (e : entry) : text := repeat 32 (2 * en_level e) ++ kind_name (en_kind e).
Lemma repeat_in (c : N) n x : In x (repeat c n) -> x = c.
Proof. apply repeat_spec. Qed.
Lemma body_inj e f : body e = body f -> en_level e = en_level f /\ en_kind e = en_kind f.
Proof.
  unfold body. intros E.
  assert (F : forall n k, filter (fun x => negb (x =? 32)) (repeat 32 n ++ kind_name k) = kind_name k).
  { intros n k. destruct (kind_name_parts k) as (_ & B & _). induction n as [|n IH]; [|exact IH]. cbn [repeat app].
    induction (kind_name k) as [|c t IH]; [reflexivity|]. unfold lacks in B. cbn [forallb] in B. apply andb_true_iff in B as [B1 B2].
    cbn [filter]. rewrite B1. f_equal. apply IH. exact B2. }
  assert (K : en_kind e = en_kind f) by (apply kind_name_inj; rewrite <- (F (2 * en_level e)%nat (en_kind e)), E, F; reflexivity).
  split; [|exact K]. rewrite K in E. apply (f_equal (@List.length N)) in E. rewrite !app_length, !repeat_length in E. lia.
Qed.
Lemma body_lacks e c : c = 64 \/ c = 10 -> ~ In c (body e).
Proof.
  unfold body. intros H I. destruct (kind_name_parts (en_kind e)) as (A & _ & B & _). apply in_app_iff in I as [I|I].
  - apply repeat_in in I. lia.
  - destruct H as [->| ->]; revert I; apply lacks_not; assumption.
Qed.
Lemma head_parts e : repeat 32 (2 * en_level e) ++ kind_name (en_kind e) ++ `"@" ++ range_text (en_start e) (en_end e) =
  body e ++ 64 :: decimal (en_start e) ++ 46 :: 46 :: decimal (en_end e).
Proof. unfold body, range_text. change (`"@") with [64]. change (`"..") with [46; 46]. cbn [app]. rewrite <- app_assoc. reflexivity. Qed.
Lemma ends_inj a b (x y : text) : decimal a ++ match x with [] => [] | _ => 32 :: x end = decimal b ++ match y with [] => [] | _ => 32 :: y end ->
  a = b /\ x = y.
Proof.
  assert (L : forall n, ~ In 32 (decimal n)) by (intros n; apply decimal_lacks; left; reflexivity).
  intros E. destruct x as [|c x], y as [|d y].
  - rewrite !app_nil_r in E. split; [apply decimal_inj; exact E|reflexivity].
  - exfalso. rewrite app_nil_r in E. apply (L a). rewrite E. apply in_elt.
  - exfalso. rewrite app_nil_r in E. apply (L b). rewrite <- E. apply in_elt.
  - apply split_first in E as [E ->]; auto. split; [apply decimal_inj; exact E|reflexivity].
Qed.
Section Plain.
Context (plain : N -> bool).
Definition tail_text (e : entry) : res text :=
  match en_text e with None => Ok [] | Some t => let! s := token_text t in Ok (debug_str plain s) end.
Lemma entry_line_eq e : entry_line plain e = let! x := tail_text e in
  Ok (body e ++ 64 :: decimal (en_start e) ++ 46 :: 46 :: decimal (en_end e) ++ match x with [] => [] | _ => 32 :: x end).
Proof.
  unfold entry_line, tail_text. rewrite head_parts. destruct (en_text e) as [t|]; [|cbn [bind]; rewrite app_nil_r; reflexivity].
  destruct (token_text t) as [s| |]; cbn [bind]; try reflexivity. f_equal. change (`" ") with [32].
  rewrite <- app_assoc. cbn [app]. rewrite <- app_assoc. cbn [app]. reflexivity.
Qed.
Lemma entry_line_inj e f l : entry_line plain e = Ok l -> entry_line plain f = Ok l -> same e f.
Proof.
  rewrite !entry_line_eq. destruct (tail_text e) as [x| |] eqn:X, (tail_text f) as [y| |] eqn:Y; cbn [bind]; try discriminate.
  intros A B. rewrite <- B in A. injection A as E.
  apply split_first in E as [E1 E]; [|apply body_lacks; auto|apply body_lacks; auto].
  apply split_first in E as [E2 E]; [|apply decimal_lacks; left; reflexivity|apply decimal_lacks; left; reflexivity].
  injection E as E. apply ends_inj in E as [E3 ->]. apply body_inj in E1 as [L K]. apply decimal_inj in E2.
  unfold same. repeat split; auto. unfold tail_text in X, Y. destruct (en_text e) as [t|], (en_text f) as [u|]; auto.
  - destruct (token_text_total t) as [s S], (token_text_total u) as [s' S']. rewrite S in X |- *. rewrite S' in Y |- *. cbn [bind] in X, Y.
    assert (Z : debug_str plain s = debug_str plain s') by congruence. apply debug_str_inj in Z as ->. reflexivity.
  - destruct (token_text_total t) as [s S]. rewrite S in X. cbn [bind] in X. unfold debug_str in X. cbn [app] in X. congruence.
  - destruct (token_text_total u) as [s S]. rewrite S in Y. cbn [bind] in Y. unfold debug_str in Y. cbn [app] in Y. congruence.
Qed.
Lemma same_line e f : same e f -> entry_line plain e = entry_line plain f.
Proof.
  intros (A & B & C & D & E). rewrite !entry_line_eq. unfold body. rewrite A, B, C, D. unfold tail_text.
  destruct (en_text e), (en_text f); try contradiction; [rewrite E|]; reflexivity.
Qed.
Lemma entry_line_total e : exists l, entry_line plain e = Ok l /\ ~ In 10 l /\ match l with c :: _ => c <> 101 | [] => False end.
Proof.
  rewrite entry_line_eq. assert (T : exists x, tail_text e = Ok x /\ ~ In 10 x).
  { unfold tail_text. destruct (en_text e) as [t|]; [|exists []; split; [reflexivity|intros []]].
    destruct (token_text_total t) as [s ->]. cbn [bind]. eexists. split; [reflexivity|apply debug_str_no_lf]. }
  destruct T as (x & -> & Hx). cbn [bind]. eexists. split; [reflexivity|]. split.
  - intros I. rewrite in_app_iff in I. destruct I as [I|[I|I]]; [revert I; apply body_lacks; auto|discriminate I|].
    rewrite in_app_iff in I. destruct I as [I|[I|[I|I]]]; try discriminate I; [revert I; apply decimal_lacks; left; reflexivity|].
    rewrite in_app_iff in I. destruct I as [I|I]; [revert I; apply decimal_lacks; left; reflexivity|].
    destruct x as [|c x]; [exact I|]. destruct I as [I|I]; [discriminate I|exact (Hx I)].
  - unfold body. destruct (en_level e) as [|n]; [|cbn; discriminate].
    destruct (kind_name_parts (en_kind e)) as (_ & _ & _ & H). cbn [Nat.mul repeat app]. destruct (kind_name (en_kind e)); [contradiction|exact H].
Qed.
Lemma tree_lines_total es : exists ls, tree_lines plain es = Ok ls /\ Forall2 (fun e l => entry_line plain e = Ok l) es ls.
Proof.
  induction es as [|e es (ls & E & F)]; cbn [tree_lines]; [exists []; auto|].
  destruct (entry_line_total e) as (l & L & _). rewrite L, E. cbn [bind]. exists (l :: ls). auto.
Qed.
Lemma error_line_eq e : error_line e = 101 :: `"rror " ++ decimal (se_pos e) ++ 46 :: 46 :: decimal (se_pos e) ++ 58 :: 32 :: se_msg e.
Proof.
  unfold error_line, range_text. change (`"error ") with (101 :: `"rror "). change (`"..") with [46; 46]. change (`": ") with [58; 32].
  cbn [app]. f_equal. rewrite <- app_assoc. reflexivity.
Qed.
(** messages may have line breaks, but no line of them begins like an error *)
Fixpoint message (m : text) : bool :=
  match m with
  | [] => true
  | c :: r => (negb (c =? 10) || match r with d :: _ => negb (d =? 101) | [] => false end) && message r
  end.
Definition errors_start (r : text) : Prop := match r with [] => True | c :: _ => c = 101 end.
Lemma message_end m m' r r' : message m = true -> message m' = true -> errors_start r -> errors_start r' ->
  m ++ 10 :: r = m' ++ 10 :: r' -> m = m' /\ r = r'.
Proof.
  assert (K : forall m r r', message (10 :: m) = true -> errors_start r -> r = m ++ 10 :: r' -> False).
  { clear. intros [|d m] r r' M O ->; cbn [message] in M; [discriminate M|]. cbn in O. subst d. cbn in M. discriminate M. }
  revert m'. induction m as [|c m IH]; intros [|c' m'] M M' O O' E; cbn [app] in E; apply cons_eq in E as [E1 E2].
  - auto.
  - subst c'. destruct (K _ _ _ M' O E2).
  - subst c. symmetry in E2. destruct (K _ _ _ M O' E2).
  - subst c'. cbn [message] in M, M'. apply andb_true_iff in M as [_ M], M' as [_ M']. destruct (IH m' M M' O O' E2) as [-> ->]. auto.
Qed.
Lemma errors_start_lines errs : errors_start (unlines (map error_line errs)).
Proof. destruct errs as [|e errs]; cbn [map unlines flat_map errors_start]; [exact I|]. reflexivity. Qed.
Lemma error_lines_inj a : forall b, Forall (fun e => message (se_msg e) = true) a -> Forall (fun e => message (se_msg e) = true) b ->
  unlines (map error_line a) = unlines (map error_line b) -> a = b.
Proof.
  induction a as [|e a IH]; intros [|f b] A B E; auto; cbn [map unlines flat_map] in E.
  - rewrite error_line_eq in E. discriminate E.
  - rewrite error_line_eq in E. discriminate E.
  - inversion A as [|? ? Me A']; subst. inversion B as [|? ? Mf B']; subst. rewrite !error_line_eq in E. cbn [app] in E. apply cons_eq in E as [_ E].
    rewrite <- !app_assoc in E. apply app_inv_head in E. cbn [app] in E.
    apply split_first in E as [E1 E]; [|apply decimal_lacks; left; reflexivity|apply decimal_lacks; left; reflexivity].
    apply cons_eq in E as [_ E]. rewrite <- !app_assoc in E. cbn [app] in E. apply split_first in E as [_ E]; [|apply decimal_lacks; right; reflexivity|apply decimal_lacks; right; reflexivity].
    apply cons_eq in E as [_ E]. apply message_end in E as [E2 E]; auto; try apply errors_start_lines.
    apply decimal_inj in E1. f_equal; [destruct e, f; cbn in *; congruence|]. apply IH; auto.
Qed.
Lemma lines_apart es fs ls ms errs errs' :
  Forall (fun e => message (se_msg e) = true) errs -> Forall (fun e => message (se_msg e) = true) errs' ->
  Forall2 (fun e l => entry_line plain e = Ok l) es ls -> Forall2 (fun e l => entry_line plain e = Ok l) fs ms ->
  unlines (ls ++ map error_line errs) = unlines (ms ++ map error_line errs') -> Forall2 same es fs /\ errs = errs'.
Proof.
  intros M M' A. 
  assert (X : forall e l r x, entry_line plain e = Ok l -> errors_start x -> (l ++ [cLF]) ++ r = x -> False).
  { intros e l r x E O F. destruct (entry_line_total e) as (l' & E' & _ & H). assert (l = l') by congruence. subst l'. destruct l as [|c l]; [exact H|].
    cbn [app] in F. subst x. exact (H O). }
  revert fs ms. induction A as [|e l es ls He A IH]; intros fs ms B E; destruct B as [|f m fs ms Hf B]; cbn [app unlines flat_map] in E.
  - split; [constructor|apply error_lines_inj; auto].
  - exfalso. symmetry in E. exact (X _ _ _ _ Hf (errors_start_lines errs) E).
  - exfalso. exact (X _ _ _ _ He (errors_start_lines errs') E).
  - rewrite <- !app_assoc in E. cbn [app] in E.
    destruct (entry_line_total e) as (l' & E1 & N1 & _). assert (l = l') by congruence. subst l'.
    destruct (entry_line_total f) as (m' & E2 & N2 & _). assert (m = m') by congruence. subst m'.
    apply split_first in E as [<- E]; auto. destruct (IH _ _ B E) as [S ->]. split; [|reflexivity]. constructor; [eapply entry_line_inj; eauto|exact S].
Qed.
End Plain.

(** ** Trees from their entries *)
Section GreenInd.
  Context (P : green -> Prop) (Pt : forall k t, P (GTok k t)) (Pn : forall k cs, Forall P cs -> P (GNode k cs)).
  Fixpoint green_ind2 (g : green) : P g :=
    match g with
    | GTok k t => Pt k t
    | GNode k cs => Pn k cs ((fix go (l : list green) : Forall P l :=
        match l with [] => Forall_nil P | c :: r => Forall_cons c (green_ind2 c) (go r) end) cs)
    end.
End GreenInd.
Fixpoint entries_from (level : nat) (pos : N) (cs : list green) : list entry :=
  match cs with [] => [] | c :: r => entries level pos c ++ entries_from level (pos + glen c) r end.
Lemma entries_node level pos k cs :
  entries level pos (GNode k cs) = Entry level k pos (pos + glen (GNode k cs)) None :: entries_from (S level) pos cs.
Proof.
  cbn [entries]. f_equal. revert pos. induction cs as [|c cs IH]; intros pos; [reflexivity|]. cbn [entries_from]. rewrite <- IH. reflexivity.
Qed.
(** what may stand behind the entries of a node on level [d] *)
Definition outside (d : nat) (r : list entry) : Prop := match r with [] => True | e :: _ => (en_level e <= d)%nat end.
Lemma entries_head d p g : exists e r, entries d p g = e :: r /\ en_level e = d.
Proof. destruct g as [k cs|k t]; [rewrite entries_node|cbn [entries]]; eauto. Qed.
Lemma outside_entries d p g r : outside d (entries d p g ++ r).
Proof. destruct (entries_head d p g) as (e & x & -> & L). cbn. lia. Qed.
Lemma read_back g : forall d p g' r r', outside d r -> outside d r' ->
  Forall2 same (entries d p g ++ r) (entries d p g' ++ r') -> alike g g' /\ glen g = glen g' /\ Forall2 same r r'.
Proof.
  induction g as [k t|k cs IH] using green_ind2; intros d p g' r r' O O' F; destruct g' as [k' cs'|k' u].
  - exfalso. rewrite entries_node in F. cbn [entries app] in F. inversion F as [|? ? ? ? S _]; subst. destruct S as (_ & _ & _ & _ & S). exact S.
  - cbn [entries app] in F. inversion F as [|? ? ? ? S F']; subst. destruct S as (_ & K & _ & E & S). cbn in K, E, S. subst k'.
    assert (L : tlen t = tlen u) by lia. split; [apply token_text_alike; [exact L|exact S]|]. split; [exact L|exact F'].
  - rewrite !entries_node in F. cbn [app] in F. inversion F as [|? ? ? ? S F']; subst. clear F. destruct S as (_ & K & _ & E & _). cbn [en_kind en_end] in K, E. subst k'.
    assert (X : Forall2 alike cs cs' /\ Forall2 same r r').
    { clear E. revert p cs' F'. induction IH as [|c cs Hc IH IH2]; intros p cs' F'; destruct cs' as [|c' cs']; cbn [entries_from app] in F'.
      - split; [constructor|exact F'].
      - exfalso. destruct (entries_head (S d) p c') as (e & x & H & L). rewrite H in F'. cbn [app] in F'. inversion F' as [|a ? ? ? S _]; subst. destruct S as (S & _). cbn in O. rewrite L in S. lia.
      - exfalso. destruct (entries_head (S d) p c) as (e & x & H & L). rewrite H in F'. cbn [app] in F'. inversion F' as [|? a ? ? S _]; subst. destruct S as (S & _). cbn in O'. rewrite L in S. lia.
      - rewrite <- !app_assoc in F'.
        assert (B : forall cs p r, outside d r -> outside (S d) (entries_from (S d) p cs ++ r)).
        { clear. intros [|c cs] p r O; [destruct r; cbn in *; [exact I|lia]|]. cbn [entries_from]. rewrite <- app_assoc. apply outside_entries. }
        destruct (Hc (S d) p c' _ _ (B cs _ _ O) (B cs' _ _ O') F') as (A1 & L & F2). rewrite L in F2.
        destruct (IH2 _ _ F2) as [A2 F3]. split; [constructor; assumption|exact F3]. }
    destruct X as [A F2]. split; [constructor; exact A|]. split; [apply N.add_cancel_l in E; exact E|exact F2].
  - exfalso. rewrite entries_node in F. cbn [entries app] in F. inversion F as [|? ? ? ? S _]; subst. destruct S as (_ & _ & _ & _ & S). exact S.
Qed.
Lemma alike_glen g : forall g', alike g g' -> glen g = glen g'.
Proof.
  induction g as [k t|k cs IH] using green_ind2; intros g' A; inversion A as [? ? ds F| |]; subst; auto.
  cbn [glen]. clear A. revert ds F. induction IH as [|c cs Hc _ IH2]; intros ds F; inversion F as [|? d ? ? A F']; subst; [reflexivity|].
  cbn [fold_right]. rewrite (Hc _ A), (IH2 _ F'). reflexivity.
Qed.
Lemma alike_same g : forall d p g', alike g g' -> Forall2 same (entries d p g) (entries d p g').
Proof.
  induction g as [k t|k cs IH] using green_ind2; intros d p g' A; inversion A as [? ? ds F|?|? ? u a L E T U]; subst.
  - constructor; [|constructor]. unfold same. cbn. auto.
  - constructor; [|constructor]. unfold same. cbn. rewrite E. repeat split; auto.
    destruct (token_text_long t L) as (x & X & ->). destruct (token_text_long u) as (y & Y & ->); [lia|].
    rewrite (opening_unique _ _ _ X T), (opening_unique _ _ _ Y U). reflexivity.
  - rewrite !entries_node. constructor.
    + unfold same. cbn [en_level en_kind en_start en_end en_text]. rewrite (alike_glen _ _ A). auto.
    + clear A. revert p ds F. induction IH as [|c cs Hc _ IH2]; intros p ds F; inversion F as [|? c' ? ds' A F']; subst; [constructor|].
      cbn [entries_from]. rewrite (alike_glen _ _ A). apply Forall2_app; [apply Hc; exact A|apply IH2; exact F'].
Qed.

(** ** Whole dumps *)
Definition plain_messages (errs : list syntax_error) : Prop := Forall (fun e => message (se_msg e) = true) errs.
Lemma dump_total plain g errs : exists d, debug_dump plain g errs = Ok d.
Proof. unfold debug_dump. destruct (tree_lines_total plain (entries 0 0 g)) as (ls & -> & _). cbn [bind]. eauto. Qed.
Lemma dump_iff plain g errs g' errs' : plain_messages errs -> plain_messages errs' ->
  debug_dump plain g errs = debug_dump plain g' errs' <-> alike g g' /\ errs = errs'.
Proof.
  intros M M'. unfold debug_dump. destruct (tree_lines_total plain (entries 0 0 g)) as (ls & E & F). destruct (tree_lines_total plain (entries 0 0 g')) as (ms & E' & F').
  split.
  - rewrite E, E'. cbn [bind]. intros H. injection H as H.
    destruct (lines_apart plain _ _ _ _ _ _ M M' F F' H) as [S ->]. split; [|reflexivity].
    destruct (read_back g 0 0 g' [] []) as [A _]; cbn; auto. rewrite !app_nil_r. exact S.
  - intros [A ->]. replace (tree_lines plain (entries 0 0 g)) with (tree_lines plain (entries 0 0 g')); [reflexivity|].
    pose proof (alike_same g 0 0 g' A) as S. clear -S. induction S as [|e f es fs H S IH]; [reflexivity|]. cbn [tree_lines]. rewrite IH, (same_line plain e f H). reflexivity.
Qed.
Lemma alike_short g : forall g', Forall (fun l => tlen (snd l) < 25) (gleaves g) -> alike g g' -> g = g'.
Proof.
  induction g as [k t|k cs IH] using green_ind2; intros g' L A; inversion A as [? ? ds F|?|? ? u a X E T U]; subst; auto.
  - cbn in L. inversion L; subst. cbn in *. lia.
  - f_equal. clear A. cbn [gleaves] in L. revert ds F L. induction IH as [|c cs Hc _ IH2]; intros ds F L; inversion F as [|? d ? ? A F']; subst; [reflexivity|].
    cbn [flat_map] in L. apply Forall_app in L as [L1 L2]. rewrite (Hc d); [|exact L1|exact A]. f_equal. apply IH2; assumption.
Qed.
