(** C86: what dove prints is read the same in whatever pieces it arrives. *)
From Coq Require Import String.
From Verif Require Import Base Utf8 Utf8Proofs ChildOutput ChildOutputProofs DoveOutput DoveOutputSpec.
Local Open Scope N_scope.

Lemma run_fold ps : forall o e, fold_left on_piece ps (o, e) = (o ++ concat (map lossy (outs ps)), e ++ concat (map lossy (errs ps))).
Proof.
  induction ps as [|[d|d] ps IH]; intros o e; cbn [fold_left on_piece outs errs flat_map app map concat]; [rewrite !app_nil_r; reflexivity| |];
  rewrite IH; unfold add_data; rewrite <- app_assoc; reflexivity.
Qed.
Lemma run_eq ps : run_command ps = (concat (map lossy (outs ps)), concat (map lossy (errs ps))).
Proof. unfold run_command. rewrite run_fold. reflexivity. Qed.

Lemma chars t : characters t -> scalars t.
Proof. intros F. apply forallb_forall. exact (proj1 (Forall_forall _ _) F). Qed.
Lemma encode_inj a b : characters a -> characters b -> encode a = encode b -> a = b.
Proof. intros A B E. apply chars, decode_encode in A, B. rewrite E in A. congruence. Qed.
Lemma characters_app a b : characters (a ++ b) <-> characters a /\ characters b.
Proof. apply Forall_app. Qed.
Lemma whole_text ds : whole ds -> exists t, characters t /\ concat ds = encode t /\ concat (map lossy ds) = t.
Proof.
  induction 1 as [|d ds (t & S & ->) W (t' & S' & E & L)]; [exists []; repeat constructor|].
  exists (t ++ t'). split; [apply characters_app; auto|]. cbn [concat map]. rewrite E, L, (lossy_encode t (chars t S)), encode_app. auto.
Qed.

(** *** Characters begin with bytes that continue nothing *)
Definition starts (l : list N) : nat := length (filter (fun b => negb (is_cont b)) l).
Lemma starts_app a b : starts (a ++ b) = (starts a + starts b)%nat.
Proof. unfold starts. rewrite filter_app, app_length. reflexivity. Qed.
Lemma starts_cons b l : starts (b :: l) = ((if is_cont b then 0 else 1) + starts l)%nat.
Proof. unfold starts. cbn [filter]. destruct (is_cont b); reflexivity. Qed.
Lemma cont_of b : is_cont b = true <-> 0x80 <= b /\ b < 0xC0.
Proof. unfold is_cont. lia. Qed.
Lemma between_of a b x : between a b x = true <-> a <= x /\ x <= b.
Proof. unfold between. lia. Qed.
Lemma lossy_starts n : forall l, (length l <= n)%nat -> (starts l <= length (lossy l))%nat.
Proof.
  induction n as [|n IH]; intros l H; [destruct l; [reflexivity|cbn in H; lia]|].
  destruct l as [|b0 r0]; [reflexivity|]. cbn [length] in H. rewrite starts_cons.
  assert (G0 : (starts r0 <= length (lossy r0))%nat) by (apply IH; lia).
  assert (One : ((if is_cont b0 then 0 else 1) <= 1)%nat) by (destruct (is_cont b0); lia).
  revert One. generalize (if is_cont b0 then 0 else 1)%nat. intros z One.
  cbn [lossy]. destruct (b0 <? 0x80); [cbn [length]; lia|].
  destruct (between 0xC2 0xDF b0).
  { destruct r0 as [|b1 r1]; [cbn [length starts filter]; unfold starts; cbn; lia|]. assert (G1 : (starts r1 <= length (lossy r1))%nat) by (apply IH; cbn [length] in H; lia).
    destruct (is_cont b1) eqn:C1; [|cbn [length]; lia]. rewrite starts_cons, C1. cbn [length]. lia. }
  destruct (between 0xE0 0xEF b0).
  { destruct r0 as [|b1 r1]; [unfold starts; cbn; lia|]. assert (G1 : (starts r1 <= length (lossy r1))%nat) by (apply IH; cbn [length] in H; lia).
    match goal with |- context [if ?c then _ else _] => lazymatch c with context [b1] => destruct c eqn:C1 end end; [|cbn [length]; lia].
    assert (C1' : is_cont b1 = true) by (revert C1; unfold between, is_cont; destruct (b0 =? 224), (b0 =? 237); lia). rewrite starts_cons, C1'.
    destruct r1 as [|b2 r2]; [unfold starts; cbn; lia|]. assert (G2 : (starts r2 <= length (lossy r2))%nat) by (apply IH; cbn [length] in H; lia).
    destruct (is_cont b2) eqn:C2; [|cbn [length]; lia]. rewrite starts_cons, C2. cbn [length]. lia. }
  destruct (between 0xF0 0xF4 b0).
  { destruct r0 as [|b1 r1]; [unfold starts; cbn; lia|]. assert (G1 : (starts r1 <= length (lossy r1))%nat) by (apply IH; cbn [length] in H; lia).
    match goal with |- context [if ?c then _ else _] => destruct c eqn:C1 end; [|cbn [length]; lia].
    assert (C1' : is_cont b1 = true) by (revert C1; unfold between, is_cont; destruct (b0 =? 240), (b0 =? 244); lia). rewrite starts_cons, C1'.
    destruct r1 as [|b2 r2]; [unfold starts; cbn; lia|]. assert (G2 : (starts r2 <= length (lossy r2))%nat) by (apply IH; cbn [length] in H; lia).
    destruct (is_cont b2) eqn:C2; [|cbn [length]; lia]. rewrite starts_cons, C2.
    destruct r2 as [|b3 r3]; [unfold starts; cbn; lia|]. assert (G3 : (starts r3 <= length (lossy r3))%nat) by (apply IH; cbn [length] in H; lia).
    destruct (is_cont b3) eqn:C3; [|cbn [length]; lia]. rewrite starts_cons, C3. cbn [length]. lia. }
  cbn [length]. lia.
Qed.
Lemma lossy_cont b l : is_cont b = true -> (starts (b :: l) < length (lossy (b :: l)))%nat.
Proof.
  intros C. rewrite starts_cons, C. pose proof (lossy_starts (length l) l (le_n _)) as G. apply cont_of in C. cbn [lossy].
  destruct (b <? 0x80) eqn:E0; [lia|]. destruct (between 0xC2 0xDF b) eqn:E1; [apply between_of in E1; lia|].
  destruct (between 0xE0 0xEF b) eqn:E2; [apply between_of in E2; lia|]. destruct (between 0xF0 0xF4 b) eqn:E3; [apply between_of in E3; lia|].
  cbn [length]. lia.
Qed.
(** the bytes of a character *)
Lemma enc_char_bytes c : is_scalar c = true -> exists b r, enc_char c = b :: r /\ is_cont b = false /\ Forall (fun x => is_cont x = true) r.
Proof.
  intros S. unfold is_scalar in S. unfold enc_char.
  assert (M : forall x, is_cont (0x80 + x mod 64) = true) by (intros x; apply cont_of; pose proof (N.mod_lt x 64 ltac:(lia)); lia).
  destruct (c <? 0x80) eqn:E1; [exists c, []; repeat split; [unfold is_cont; lia|constructor]|].
  destruct (c <? 0x800) eqn:E2; [eexists _, _; split; [reflexivity|]; split; [unfold is_cont; lia|repeat constructor; apply M]|].
  destruct (c <? 0x10000) eqn:E3; eexists _, _; (split; [reflexivity|]); (split; [unfold is_cont; lia|repeat constructor; apply M]).
Qed.
Lemma encode_starts t : characters t -> starts (encode t) = length t.
Proof.
  induction 1 as [|c t S F IH]; [reflexivity|]. unfold encode in *. cbn [flat_map length]. rewrite starts_app, IH.
  destruct (enc_char_bytes c S) as (b & r & -> & B & R). rewrite starts_cons, B. enough (starts r = 0)%nat by lia.
  clear -R. induction R as [|x r X R IH]; [reflexivity|]. rewrite starts_cons, X, IH. reflexivity.
Qed.
Lemma encode_cut t : characters t -> forall a b, encode t = a ++ b -> match b with x :: _ => is_cont x = false | [] => True end ->
  exists t1 t2, characters t1 /\ characters t2 /\ a = encode t1 /\ b = encode t2.
Proof.
  induction 1 as [|c t S F IH]; intros a b E H.
  - apply eq_sym, app_eq_nil in E as [-> ->]. exists [], []. repeat constructor.
  - destruct a as [|y a]; [exists [], (c :: t); repeat split; [constructor|constructor; assumption|symmetry; exact E]|].
    unfold encode in E. cbn [flat_map] in E. fold (encode t) in E. destruct (enc_char_bytes c S) as (x & r & Ec & _ & R). rewrite Ec in E. cbn [app] in E. injection E as <- E.
    assert (X : exists a', a = r ++ a' /\ encode t = a' ++ b).
    { clear Ec IH. revert a E. induction R as [|z r Z R IHr]; intros a E; [exists a; auto|]. destruct a as [|w a]; cbn [app] in E.
      - subst b. congruence.
      - injection E as <- E. destruct (IHr a E) as (a' & -> & E'). exists a'. auto. }
    destruct X as (a' & -> & E'). destruct (IH a' b E' H) as (t1 & t2 & S1 & S2 & -> & ->). exists (c :: t1), t2. repeat split; [constructor; assumption|assumption|].
    unfold encode. cbn [flat_map]. rewrite Ec. reflexivity.
Qed.
Lemma right_whole ds : forall t, characters t -> concat ds = encode t -> concat (map lossy ds) = t -> whole ds.
Proof.
  intros t S E L.
  assert (N : Forall (fun d => match d with x :: _ => is_cont x = false | [] => True end) ds).
  { assert (Le : forall ds : list (list N), (starts (concat ds) <= length (concat (map lossy ds)))%nat).
    { clear. induction ds as [|d ds IH]; [reflexivity|]. cbn [concat map]. rewrite starts_app, app_length. pose proof (lossy_starts (length d) d (le_n _)). lia. }
    assert (Eq : starts (concat ds) = length (concat (map lossy ds))) by (rewrite E, L; apply encode_starts; exact S).
    clear E L S. induction ds as [|d ds IH]; constructor; cbn [concat map] in Eq; rewrite starts_app, app_length in Eq; pose proof (lossy_starts (length d) d (le_n _)) as Ld; pose proof (Le ds) as Ls.
    - destruct d as [|x d]; [exact I|]. destruct (is_cont x) eqn:C; [|reflexivity]. pose proof (lossy_cont x d C). lia.
    - apply IH. lia. }
  clear L. revert t S E. induction N as [|d ds H N IH]; intros t S E; [constructor|]. cbn [concat] in E.
  assert (Hb : match concat ds with x :: _ => is_cont x = false | [] => True end).
  { clear -N. induction N as [|d ds H N IH]; [exact I|]. destruct d as [|x d]; [exact IH|exact H]. }
  destruct (encode_cut t S _ _ (eq_sym E) Hb) as (t1 & t2 & S1 & S2 & -> & E2). constructor; [exists t1; auto|]. apply (IH t2 S2 E2).
Qed.

(** What is printed is read as it is exactly if no character is cut. *)
Theorem C86_right_iff : forall ps out err, prints ps out err ->
  (fst (run_command ps) = out <-> whole (outs ps)) /\ (snd (run_command ps) = err <-> whole (errs ps)).
Proof.
  assert (G : forall ds t, characters t -> concat ds = encode t -> concat (map lossy ds) = t <-> whole ds).
  { intros ds t S E. split; [apply right_whole; assumption|]. intros W. destruct (whole_text ds W) as (t' & S' & E' & L). rewrite L. apply encode_inj; [exact S'|exact S|congruence]. }
  intros ps out err (S1 & S2 & E1 & E2). rewrite run_eq. cbn [fst snd]. split; apply G; assumption.
Qed.
(** So then the metadata are the same in whatever pieces and order the output
    arrives. *)
Theorem C86_same_answer_partial : forall (M : Type) (parse : text -> option M) ps ps' out err, prints ps out err -> prints ps' out err ->
  whole (outs ps) -> whole (errs ps) -> whole (outs ps') -> whole (errs ps') ->
  metadata parse ps = metadata parse ps' /\ metadata_with_error_message parse ps = metadata_with_error_message parse ps'.
Proof.
  intros M parse ps ps' out err P P' A B A' B'.
  assert (E : run_command ps = run_command ps').
  { destruct (C86_right_iff _ _ _ P) as [X Y]. destruct (C86_right_iff _ _ _ P') as [X' Y']. apply X in A. apply Y in B. apply X' in A'. apply Y' in B'.
    destruct (run_command ps), (run_command ps'). cbn [fst snd] in *. congruence. }
  unfold metadata_with_error_message, metadata. rewrite E. auto.
Qed.
(** The answer itself: nothing printed means that the manifest is wrong, for the
    reasons printed to the other pipe; otherwise the text counts without the
    blanks around it. *)
Lemma js_trim_start_spec t : exists a, t = a ++ js_trim_start t /\ Forall (fun c => js_blank c = true) a /\ forall x, hd_error (js_trim_start t) = Some x -> js_blank x = false.
Proof.
  induction t as [|c t (a & E & F & H)]; cbn [js_trim_start]; [exists []; repeat split; [constructor|discriminate]|].
  destruct (js_blank c) eqn:B; [exists (c :: a); repeat split; [cbn [app]; congruence|constructor; assumption|exact H]|].
  exists []. repeat split; [constructor|]. intros x X. injection X as <-. exact B.
Qed.
Lemma js_trim_spec t : trimmed t (js_trim t).
Proof.
  unfold js_trim. destruct (js_trim_start_spec t) as (a & E & F & H). set (u := js_trim_start t) in *. clearbody u.
  destruct (js_trim_start_spec (rev u)) as (b & E' & F' & H'). set (v := js_trim_start (rev u)) in *. clearbody v.
  assert (U : u = rev v ++ rev b) by (rewrite <- (rev_involutive u), E', rev_app_distr; reflexivity).
  exists a, (rev b). rewrite <- U. split; [exact E|]. split; [exact F|]. split; [apply Forall_rev; exact F'|].
  intros x [X|X]; [apply H; rewrite U; destruct (rev v); [discriminate X|exact X]|rewrite rev_involutive in X; apply H'; exact X].
Qed.
Theorem C86_answer_partial : forall (M : Type) (parse : text -> option M) ps out err, prints ps out err -> whole (outs ps) -> whole (errs ps) ->
  (out = [] -> metadata parse ps = Nothing err /\ metadata_with_error_message parse ps = Some (None, [`"Dove.toml is invalid: " ++ err])) /\
  (out <> [] -> exists mid, trimmed out mid /\
    match parse mid with
    | Some m => metadata parse ps = Parsed m err /\ metadata_with_error_message parse ps = Some (Some m, [])
    | None => metadata parse ps = Rejected /\ metadata_with_error_message parse ps = None
    end).
Proof.
  intros M parse ps out err P A B. destruct (C86_right_iff _ _ _ P) as [X Y]. apply X in A. apply Y in B.
  unfold metadata_with_error_message, metadata. destruct (run_command ps) as [o e]. cbn [fst snd] in *. subst o e. split.
  - intros ->. auto.
  - intros N. exists (js_trim out). split; [apply js_trim_spec|]. destruct out as [|c out]; [congruence|]. destruct (parse _); auto.
Qed.
(** No character is cut whenever only ASCII characters are printed. *)
Theorem C86_ascii_partial : forall ps, Forall (fun b => b < 128) (concat (outs ps)) -> whole (outs ps) /\ fst (run_command ps) = concat (outs ps).
Proof.
  intros ps F. assert (W : whole (outs ps)).
  { revert F. generalize (outs ps). intros ds. induction ds as [|d ds IH]; intros F; constructor; cbn [concat] in F; apply Forall_app in F as [Fd F]; [|apply IH; exact F].
    exists d. clear -Fd. induction Fd as [|b d B Fd [S E]]; [split; [constructor|reflexivity]|]. split; [constructor; [unfold is_scalar; lia|exact S]|].
    unfold encode in *. cbn [flat_map]. rewrite <- E. unfold enc_char. destruct (b <? 0x80) eqn:X; [|lia]. reflexivity. }
  split; [exact W|]. destruct (whole_text _ W) as (t & S & E & L). rewrite run_eq. cbn [fst]. rewrite L, E. rewrite E in F. clear -F S.
  induction S as [|c t C S IH]; [reflexivity|]. unfold encode in *. cbn [flat_map] in *. apply Forall_app in F as [Fc F]. rewrite <- (IH F).
  unfold is_scalar in C. revert Fc. unfold enc_char. destruct (c <? 128) eqn:X; [reflexivity|].
  destruct (c <? 2048); [intros Fc; inversion Fc; lia|]. destruct (c <? 65536); intros Fc; inversion Fc; lia.
Qed.
(** In general it is not so: a folder named "é", cut in its middle. *)
Theorem C86_pieces_refuted : ~ forall ps ps' out err, prints ps out err -> prints ps' out err -> run_command ps = run_command ps'.
Proof.
  intros X. assert (E : run_command [OutPiece (encode [233])] = run_command [OutPiece [0xC3]; OutPiece [0xA9]]).
  { apply (X _ _ [233] []); repeat split; repeat constructor. }
  vm_compute in E. discriminate E.
Qed.

(** *** The theorems are not about nothing *)
Example mixed : list piece := [OutPiece (encode [34; 233]); ErrPiece (encode [119]); OutPiece (encode [34; 10])].
Example mixed_prints : prints mixed [34; 233; 34; 10] [119] /\ whole (outs mixed) /\ whole (errs mixed).
Proof.
  repeat split; repeat constructor.
  - exists [34; 233]. repeat constructor.
  - exists [34; 10]. repeat constructor.
  - exists [119]. repeat constructor.
Qed.
Example mixed_read : metadata (fun t => Some t) mixed = Parsed [34; 233; 34] [119].
Proof. vm_compute. reflexivity. Qed.
Example nothing_read : metadata_with_error_message (fun t => Some t) [ErrPiece [110; 111]] = Some (None, [`"Dove.toml is invalid: no"]).
Proof. vm_compute. reflexivity. Qed.
Example cut : fst (run_command [OutPiece [0xC3]; OutPiece [0xA9]]) = [0xFFFD; 0xFFFD].
Proof. vm_compute. reflexivity. Qed.
Print Assumptions C86_right_iff.
Print Assumptions C86_same_answer_partial.
Print Assumptions C86_answer_partial.
Print Assumptions C86_ascii_partial.
Print Assumptions C86_pieces_refuted.
