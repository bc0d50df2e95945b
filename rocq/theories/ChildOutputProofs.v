(** Lemmas about ChildOutput.v. *)
From Verif Require Import Base BaseProofs Utf8 Utf8Proofs ChildOutput ChildOutputSpec.
Local Open Scope N_scope.

(** ** Decoding *)
Lemma lossy_lf n : forall a b, (length a <= n)%nat -> lossy (a ++ 10 :: b) = lossy a ++ 10 :: lossy b.
Proof.
  induction n as [|n IH]; intros a b L.
  - destruct a; [reflexivity|cbn in L; lia].
  - destruct a as [|b0 r0]; [reflexivity|]. cbn [length] in L. cbn [app lossy].
    destruct (b0 <? 0x80); [cbn [app]; f_equal; apply IH; lia|].
    destruct (between 0xC2 0xDF b0).
    { destruct r0 as [|b1 r1]; [reflexivity|]. cbn [length] in L. cbn [app].
      destruct (is_cont b1); cbn [app]; f_equal; [apply IH; lia|]. apply (IH (b1 :: r1)). cbn [length]; lia. }
    destruct (between 0xE0 0xEF b0).
    { destruct r0 as [|b1 r1]; [cbn [app]; destruct (b0 =? 0xE0); [|destruct (b0 =? 0xED)]; reflexivity|]. cbn [length] in L. cbn [app].
      destruct (if b0 =? 0xE0 then _ else _); [|cbn [app]; f_equal; apply (IH (b1 :: r1)); cbn [length]; lia].
      destruct r1 as [|b2 r2]; [reflexivity|]. cbn [length] in L. cbn [app].
      destruct (is_cont b2); cbn [app]; f_equal; [apply IH; lia|apply (IH (b2 :: r2)); cbn [length]; lia]. }
    destruct (between 0xF0 0xF4 b0).
    { destruct r0 as [|b1 r1]; [cbn [app]; destruct (b0 =? 0xF0); [|destruct (b0 =? 0xF4)]; reflexivity|]. cbn [length] in L. cbn [app].
      destruct (if b0 =? 0xF0 then _ else _); [|cbn [app]; f_equal; apply (IH (b1 :: r1)); cbn [length]; lia].
      destruct r1 as [|b2 r2]; [reflexivity|]. cbn [length] in L. cbn [app].
      destruct (is_cont b2); [|cbn [app]; f_equal; apply (IH (b2 :: r2)); cbn [length]; lia].
      destruct r2 as [|b3 r3]; [reflexivity|]. cbn [length] in L. cbn [app].
      destruct (is_cont b3); cbn [app]; f_equal; [apply IH; lia|apply (IH (b3 :: r3)); cbn [length]; lia]. }
    cbn [app]. f_equal. apply IH. lia.
Qed.
Lemma lossy_app a b : at_boundary a -> lossy (a ++ b) = lossy a ++ lossy b.
Proof.
  intros [->|[x ->]]; [reflexivity|]. rewrite <- app_assoc. cbn [app]. rewrite (lossy_lf (length x)) by lia.
  rewrite (lossy_lf (length x) x []) by lia. rewrite <- app_assoc. reflexivity.
Qed.
Lemma lossy_boundary a : at_boundary a -> at_boundary (lossy a).
Proof. intros [->|[x ->]]; [left; reflexivity|]. right. exists (lossy x). rewrite (lossy_lf (length x) x []) by lia. reflexivity. Qed.

Lemma lossy3 b0 b1 b2 r : between 0xE0 0xEF b0 = true ->
  (if b0 =? 0xE0 then between 0xA0 0xBF b1 else if b0 =? 0xED then between 0x80 0x9F b1 else is_cont b1) = true -> is_cont b2 = true ->
  lossy (b0 :: b1 :: b2 :: r) = ((b0 - 0xE0) * 4096 + (b1 - 0x80) * 64 + (b2 - 0x80)) :: lossy r.
Proof.
  intros A B C. assert (b0 <? 0x80 = false) as A1 by (unfold between in A; lia). assert (between 0xC2 0xDF b0 = false) as A2 by (unfold between in *; lia).
  cbn [lossy]. rewrite A1, A2, A, B, C. reflexivity.
Qed.
Lemma lossy4 b0 b1 b2 b3 r : between 0xF0 0xF4 b0 = true ->
  (if b0 =? 0xF0 then between 0x90 0xBF b1 else if b0 =? 0xF4 then between 0x80 0x8F b1 else is_cont b1) = true -> is_cont b2 = true -> is_cont b3 = true ->
  lossy (b0 :: b1 :: b2 :: b3 :: r) = ((b0 - 0xF0) * 262144 + (b1 - 0x80) * 4096 + (b2 - 0x80) * 64 + (b3 - 0x80)) :: lossy r.
Proof.
  intros A B C D. assert (b0 <? 0x80 = false) as A1 by (unfold between in A; lia). assert (between 0xC2 0xDF b0 = false) as A2 by (unfold between in *; lia).
  assert (between 0xE0 0xEF b0 = false) as A3 by (unfold between in *; lia).
  cbn [lossy]. rewrite A1, A2, A3, A, B, C, D. reflexivity.
Qed.
Lemma lossy_enc_char c r : is_scalar c = true -> lossy (enc_char c ++ r) = c :: lossy r.
Proof.
  intros Hs. unfold is_scalar in Hs. unfold enc_char. destruct (N.ltb_spec c 0x80) as [A|A]; [cbn [app lossy]; destruct (N.ltb_spec c 0x80); [reflexivity|lia]|].
  assert (M : forall x, x mod 64 < 64) by (intros; apply N.mod_lt; lia).
  assert (Ct : forall x, is_cont (0x80 + x mod 64) = true) by (intros x; unfold is_cont; pose proof (M x); lia).
  assert (D1 : c = 64 * (c / 64) + c mod 64) by (apply N.div_mod; lia).
  destruct (N.ltb_spec c 0x800) as [B|B].
  { cbn [app lossy]. pose proof (N.div_lt_upper_bound c 64 32 ltac:(lia) ltac:(lia)). pose proof (N.div_le_lower_bound c 64 2 ltac:(lia) ltac:(lia)).
    destruct (N.ltb_spec (0xC0 + c / 64) 0x80); [lia|]. unfold between. destruct (N.leb_spec 0xC2 (0xC0 + c / 64)); [|lia]. destruct (N.leb_spec (0xC0 + c / 64) 0xDF); [|lia].
    cbn [andb]. rewrite Ct. f_equal. pose proof (M c). lia. }
  assert (D2 : c / 64 = 64 * (c / 4096) + (c / 64) mod 64).
  { rewrite (N.div_mod (c / 64) 64) at 1 by lia. rewrite N.div_div by lia. reflexivity. }
  destruct (N.ltb_spec c 0x10000) as [E|E].
  { pose proof (N.div_lt_upper_bound c 4096 16 ltac:(lia) ltac:(lia)) as U. pose proof (M (c / 64)) as M1. pose proof (M c) as M0.
    cbn [app]. rewrite lossy3; [f_equal; clear - D1 D2; lia| | |apply Ct].
    - unfold between. lia.
    - destruct (N.eqb_spec (0xE0 + c / 4096) 0xE0) as [Z|Z]; [unfold between; lia|].
      destruct (N.eqb_spec (0xE0 + c / 4096) 0xED) as [Z'|Z']; [unfold between; lia|apply Ct]. }
  assert (D3 : c / 4096 = 64 * (c / 262144) + (c / 4096) mod 64).
  { rewrite (N.div_mod (c / 4096) 64) at 1 by lia. rewrite N.div_div by lia. reflexivity. }
  assert (c < 0x110000) by lia. pose proof (N.div_lt_upper_bound c 262144 5 ltac:(lia) ltac:(lia)) as U.
  pose proof (M (c / 4096)) as M2. pose proof (M (c / 64)) as M1. pose proof (M c) as M0.
  cbn [app]. rewrite lossy4; [f_equal; clear - D1 D2 D3; lia| | |apply Ct|apply Ct].
  - unfold between. lia.
  - destruct (N.eqb_spec (0xF0 + c / 262144) 0xF0) as [Z|Z]; [unfold between; lia|].
    destruct (N.eqb_spec (0xF0 + c / 262144) 0xF4) as [Z'|Z']; [unfold between; lia|apply Ct].
Qed.
Lemma lossy_encode t : scalars t -> lossy (encode t) = t.
Proof.
  induction t as [|c t IH]; intros S; [reflexivity|]. apply andb_prop in S as [A B]. cbn [encode flat_map].
  fold (encode t). rewrite lossy_enc_char by exact A. f_equal. apply IH. exact B.
Qed.

(** ** Lines *)
Lemma strip_cr_spec l : without_cr l (strip_cr l).
Proof.
  destruct l as [|x l] using rev_ind; [apply WNone; intros l'; destruct l'; discriminate|]. clear IHl.
  assert (E : strip_cr (l ++ [x]) = if x =? 13 then l else l ++ [x]).
  { induction l as [|y l IH]; cbn [app strip_cr]; [reflexivity|]. destruct (l ++ [x]) eqn:Z; [destruct l; discriminate|].
    rewrite IH. destruct (x =? 13); reflexivity. }
  rewrite E. destruct (N.eqb_spec x 13) as [->|N]; [apply WCr|]. apply WNone. intros l' H. apply app_inj_tail in H as [_ H]. contradiction.
Qed.
Lemma split_lines t : forall cur, ~ In 10 cur -> lines_of (rev cur ++ t) (map strip_cr (split_terminator cur t)).
Proof.
  induction t as [|c t IH]; intros cur N; cbn [split_terminator].
  - rewrite app_nil_r. destruct cur as [|x cur]; [constructor|]. cbn [map]. apply LLast; [|rewrite <- in_rev; exact N|apply strip_cr_spec].
    intros H. apply (f_equal (@length _)) in H. rewrite rev_length in H. discriminate.
  - destruct (N.eqb_spec c 10) as [->|Nc].
    + cbn [map]. apply LLine; [rewrite <- in_rev; exact N|apply strip_cr_spec|]. apply (IH []). intros [].
    + specialize (IH (c :: cur)). cbn [rev] in IH. rewrite <- app_assoc in IH. apply IH. intros [X|X]; [congruence|contradiction].
Qed.
Lemma str_lines_spec t : lines_of t (str_lines t).
Proof. apply (split_lines t []). intros []. Qed.
Lemma lines_app a la b lb : at_boundary a -> lines_of a la -> lines_of b lb -> lines_of (a ++ b) (la ++ lb).
Proof.
  intros B H Hb. revert B. induction H as [|l l' Hl Hn Hc|l l' t ls Hn Hc Ht IH]; intros B; cbn [app].
  - exact Hb.
  - exfalso. destruct B as [->|[x ->]]; [apply Hl; reflexivity|]. apply Hn, in_or_app. right. left. reflexivity.
  - rewrite <- app_assoc. cbn [app]. apply LLine; [exact Hn|exact Hc|]. apply IH. destruct B as [B|[x B]]; [destruct l; discriminate|].
    destruct t as [|y t] using rev_ind; [left; reflexivity|]. right. clear IHt. exists t.
    replace (l ++ 10 :: t ++ [y]) with ((l ++ 10 :: t) ++ [y]) in B by (rewrite <- app_assoc; reflexivity).
    apply app_inj_tail in B as [_ ->]. reflexivity.
Qed.
Lemma calls_app b c l : calls_of b (c ++ map (pair b) l) = calls_of b c ++ l.
Proof.
  unfold calls_of. rewrite filter_app, map_app. f_equal. induction l as [|x l IH]; cbn; [reflexivity|]. rewrite Bool.eqb_reflx. cbn. f_equal. exact IH.
Qed.
Lemma calls_other b c l : calls_of b (c ++ map (pair (negb b)) l) = calls_of b c.
Proof.
  unfold calls_of. rewrite filter_app, map_app. induction l as [|x l IH]; cbn; [apply app_nil_r|]. destruct b; cbn; exact IH.
Qed.
Lemma rposition_spec l : match rposition_lf l with
  | Some i => exists a b, l = a ++ 10 :: b /\ length a = i /\ ~ In 10 b
  | None => ~ In 10 l end.
Proof.
  induction l as [|x l IH]; cbn [rposition_lf]; [intros []|]. destruct (rposition_lf l) as [i|].
  - destruct IH as (a & b & -> & <- & N). exists (x :: a), b. auto.
  - destruct (N.eqb_spec x 10) as [->|N]; [exists [], l; auto|]. intros [H|H]; [congruence|contradiction].
Qed.

(** ** What [on_data] does to the stream it is about *)
Definition part (b : bool) (c : collected) : list N := if b then c_stdout c else c_stderr c.
(** [whole] was handed over, up to a boundary unless [eof] *)
Definition served (b : bool) (c : collected) (eof : bool) : Prop :=
  lines_of (lossy (part b c)) (calls_of b (c_calls c)) /\ (eof = false -> at_boundary (part b c)).
Lemma on_data_spec c b buf eof c' buf' : on_data c b buf eof = (c', buf') -> served b c false ->
  part b c' ++ buf' = part b c ++ buf /\ ~ In 10 buf' /\ (eof = true -> buf' = []) /\ served b c' eof /\
  part (negb b) c' = part (negb b) c /\ calls_of (negb b) (c_calls c') = calls_of (negb b) (c_calls c).
Proof.
  intros H [L B]. specialize (B eq_refl). unfold on_data in H.
  assert (Go : forall idx, (idx <= length buf)%nat -> ~ In 10 (skipn idx buf) -> (eof = true -> idx = length buf) ->
    (eof = false -> at_boundary (firstn idx buf)) ->
    (let new_lines := firstn idx buf in
     let calls := c_calls c ++ map (pair b) (str_lines (lossy new_lines)) in
     (if b then Collected (c_stdout c ++ new_lines) (c_stderr c) calls else Collected (c_stdout c) (c_stderr c ++ new_lines) calls, skipn idx buf)) = (c', buf') ->
    part b c' ++ buf' = part b c ++ buf /\ ~ In 10 buf' /\ (eof = true -> buf' = []) /\ served b c' eof /\
    part (negb b) c' = part (negb b) c /\ calls_of (negb b) (c_calls c') = calls_of (negb b) (c_calls c)).
  { clear H. intros idx Hi N E Bd H. cbn zeta in H. injection H as <- <-.
    assert (P1 : part b (if b then Collected (c_stdout c ++ firstn idx buf) (c_stderr c) (c_calls c ++ map (pair b) (str_lines (lossy (firstn idx buf))))
                 else Collected (c_stdout c) (c_stderr c ++ firstn idx buf) (c_calls c ++ map (pair b) (str_lines (lossy (firstn idx buf))))) = part b c ++ firstn idx buf) by (destruct b; reflexivity).
    assert (P2 : forall c1, c1 = (if b then Collected (c_stdout c ++ firstn idx buf) (c_stderr c) (c_calls c ++ map (pair b) (str_lines (lossy (firstn idx buf))))
                 else Collected (c_stdout c) (c_stderr c ++ firstn idx buf) (c_calls c ++ map (pair b) (str_lines (lossy (firstn idx buf))))) ->
                 c_calls c1 = c_calls c ++ map (pair b) (str_lines (lossy (firstn idx buf))) /\ part (negb b) c1 = part (negb b) c) by (intros c1 ->; destruct b; auto).
    destruct (P2 _ eq_refl) as [P3 P4]. split; [rewrite P1, <- app_assoc, firstn_skipn; reflexivity|]. split; [exact N|].
    split; [intros X; rewrite (E X); apply skipn_all|]. split; [split|split].
    - rewrite P1, P3, calls_app, (lossy_app _ _ B). apply lines_app; [apply lossy_boundary; exact B|exact L|apply str_lines_spec].
    - intros X. rewrite P1. destruct (Bd X) as [Z|[x Z]]; [rewrite Z, app_nil_r; exact B|]. right. exists (part b c ++ x). rewrite Z, app_assoc. reflexivity.
    - exact P4.
    - rewrite P3. pose proof (calls_other (negb b) (c_calls c) (str_lines (lossy (firstn idx buf)))) as X. rewrite Bool.negb_involutive in X. exact X. }
  destruct eof.
  - apply (Go (length buf)); [lia|rewrite skipn_all; intros []|reflexivity|discriminate|exact H].
  - pose proof (rposition_spec buf) as R. destruct (rposition_lf buf) as [i|].
    + destruct R as (x & y & -> & <- & N). assert (Ef : firstn (length x + 1) (x ++ 10 :: y) = x ++ [10]).
      { rewrite firstn_app, firstn_all2 by lia. replace (length x + 1 - length x)%nat with 1%nat by lia. reflexivity. }
      assert (Es : skipn (length x + 1) (x ++ 10 :: y) = y).
      { rewrite skipn_app, skipn_all2 by lia. replace (length x + 1 - length x)%nat with 1%nat by lia. reflexivity. }
      apply (Go (length x + 1)%nat); [rewrite app_length; cbn [length]; lia|rewrite Es; exact N|discriminate| |exact H].
      intros _. rewrite Ef. right. eauto.
    + injection H as <- <-. split; [reflexivity|]. split; [exact R|]. split; [discriminate|]. split; [split; auto|]. auto.
Qed.
(** once a stream is at its end nothing more happens to it *)
Lemma on_data_done c b : on_data c b [] true = (Collected (c_stdout c) (c_stderr c) (c_calls c), []).
Proof. unfold on_data. cbn [length firstn skipn]. cbn. rewrite !app_nil_r. destruct b; reflexivity. Qed.
Lemma collected_eta c : Collected (c_stdout c) (c_stderr c) (c_calls c) = c.
Proof. destruct c; reflexivity. Qed.

(** ** The invariant *)
Record stream_ok (b : bool) (all rest buf : list N) (done : bool) (c : collected) : Prop := {
  st_all : all = part b c ++ buf ++ rest;
  st_buf : ~ In 10 buf;
  st_done : done = true -> buf = [] /\ rest = [];
  st_served : served b c done }.
Record reader_ok (o e : list N) (r : reader) : Prop := {
  ro_out : stream_ok true o (out_rest r) (out_buf r) (out_done r) (handed r);
  ro_err : stream_ok false e (err_rest r) (err_buf r) (err_done r) (handed r);
  ro_fd1 : fd1 r = PErr;
  ro_fd0 : fd0 r = if out_done r then PErr else POut;
  ro_at : err_at_0 r = out_done r;
  ro_nfds : nfds r = ((if out_done r then 0 else 1) + (if err_done r then 0 else 1))%nat }.
Lemma stream_other b all rest buf done c c' : stream_ok b all rest buf done c ->
  part b c' = part b c -> calls_of b (c_calls c') = calls_of b (c_calls c) -> stream_ok b all rest buf done c'.
Proof. intros [S1 S2 S3 [S4 S5]] P C. split; [rewrite P; exact S1|exact S2|exact S3|]. split; rewrite P; [rewrite C; exact S4|exact S5]. Qed.
Lemma stream_read b all rest buf c got rest' eof c' buf' : stream_ok b all rest buf false c -> rest = got ++ rest' ->
  (eof = true -> rest' = []) -> on_data c b (buf ++ got) eof = (c', buf') -> stream_ok b all rest' buf' eof c' /\
  part (negb b) c' = part (negb b) c /\ calls_of (negb b) (c_calls c') = calls_of (negb b) (c_calls c).
Proof.
  intros [S1 S2 S3 S4] E X H. destruct (on_data_spec _ _ _ _ _ _ H S4) as (D1 & D2 & D3 & D4 & D5 & D6).
  split; [|auto]. split; [|exact D2|intros Y; split; auto|exact D4]. rewrite app_assoc, D1, S1, E, <- !app_assoc. reflexivity.
Qed.
Lemma stream_idle b all rest buf done c c' buf' : stream_ok b all rest buf done c -> on_data c b buf done = (c', buf') ->
  stream_ok b all rest buf' done c' /\ part (negb b) c' = part (negb b) c /\ calls_of (negb b) (c_calls c') = calls_of (negb b) (c_calls c).
Proof.
  intros S H. destruct done.
  - destruct (st_done _ _ _ _ _ _ S eq_refl) as [-> ->]. rewrite on_data_done, collected_eta in H. injection H as <- <-. auto.
  - apply (stream_read b all rest buf c [] rest false c' buf' S eq_refl); [discriminate|]. rewrite app_nil_r. exact H.
Qed.
Lemma read_to_end_spec rest avail : exists got rest' eof, read_to_end rest avail = (got, rest', eof) /\ rest = got ++ rest' /\
  rest' = skipn avail rest /\ (eof = true -> rest' = []) /\ ((length rest < avail)%nat -> eof = true).
Proof.
  do 3 eexists. split; [reflexivity|]. split; [symmetry; apply firstn_skipn|]. split; [reflexivity|]. split.
  - intros H. apply Nat.ltb_lt in H. apply skipn_all2. lia.
  - intros H. apply Nat.ltb_lt. exact H.
Qed.
Lemma err_part_spec o e r avail fails : reader_ok o e r ->
  match err_part r avail fails with
  | Fails c => fails = true /\ c = handed r
  | Goes r' => reader_ok o e r' /\ out_rest r' = out_rest r /\ out_done r' = out_done r /\ rev0 r' = rev0 r /\
      ((if err_at_0 r then rev0 r else rev1 r) = true -> err_rest r' = skipn avail (err_rest r) /\ ((length (err_rest r) < avail)%nat -> err_done r' = true)) /\
      (err_done r = true -> err_done r' = true)
  end.
Proof.
  intros [O E F1 F0 A N]. unfold err_part. destruct (err_done r) eqn:De; cbn [negb andb].
  - destruct (on_data (handed r) false (err_buf r) true) as [c buf] eqn:H. destruct (stream_idle _ _ _ _ _ _ _ _ E H) as (S & P & C). cbn [negb] in P, C.
    split; [split; cbn; [eapply stream_other; eauto|exact S|exact F1|exact F0|exact A|rewrite ?De; exact N]|]. split; [reflexivity|]. split; [reflexivity|]. split; [reflexivity|]. cbn [err_rest err_done].
    destruct (st_done _ _ _ _ _ _ E eq_refl) as [_ Hr]. rewrite Hr. split; [intros _; split; [rewrite skipn_nil; reflexivity|auto]|auto].
  - destruct (if err_at_0 r then rev0 r else rev1 r) eqn:Rv.
    + destruct fails; [auto|]. destruct (read_to_end_spec (err_rest r) avail) as (got & rest & eof & -> & R1 & R2 & R3 & R4).
      destruct (on_data (handed r) false (err_buf r ++ got) eof) as [c buf] eqn:H. destruct (stream_read _ _ _ _ _ _ _ _ _ _ E R1 R3 H) as (S & P & C). cbn [negb] in P, C.
      split; [split; cbn; [eapply stream_other; eauto|exact S|exact F1|exact F0|exact A|]|].
      { rewrite N. destruct eof, (out_done r); reflexivity. }
      cbn. split; [reflexivity|]. split; [reflexivity|]. split; [reflexivity|]. split; [intros _; auto|discriminate].
    + destruct (on_data (handed r) false (err_buf r) false) as [c buf] eqn:H. destruct (stream_idle _ _ _ _ _ _ _ _ E H) as (S & P & C). cbn [negb] in P, C.
      split; [split; cbn; [eapply stream_other; eauto|exact S|exact F1|exact F0|exact A|rewrite ?De; exact N]|]. cbn. split; [reflexivity|]. split; [reflexivity|]. split; [reflexivity|]. split; discriminate.
Qed.
Lemma out_part_spec o e r avail fails : reader_ok o e r ->
  match out_part r avail fails with
  | Fails c => fails = true /\ c = handed r
  | Goes r' => reader_ok o e r' /\ err_rest r' = err_rest r /\ err_done r' = err_done r /\
      ((rev0 r = true \/ out_done r = true) -> out_rest r' = skipn avail (out_rest r) /\ ((length (out_rest r) < avail)%nat -> out_done r' = true))
  end.
Proof.
  intros [O E F1 F0 A N]. unfold out_part. destruct (out_done r) eqn:De; cbn [negb andb].
  - destruct (on_data (handed r) true (out_buf r) true) as [c buf] eqn:H. destruct (stream_idle _ _ _ _ _ _ _ _ O H) as (S & P & C). cbn [negb] in P, C.
    split; [split; cbn; [exact S|eapply stream_other; eauto|exact F1|rewrite ?De; exact F0|rewrite ?De; exact A|rewrite ?De; exact N]|]. cbn. split; [reflexivity|]. split; [reflexivity|].
    destruct (st_done _ _ _ _ _ _ O eq_refl) as [_ Hr]. rewrite Hr. intros _. split; [rewrite skipn_nil; reflexivity|auto].
  - destruct (rev0 r) eqn:Rv.
    + destruct fails; [auto|]. destruct (read_to_end_spec (out_rest r) avail) as (got & rest & eof & -> & R1 & R2 & R3 & R4).
      destruct (on_data (handed r) true (out_buf r ++ got) eof) as [c buf] eqn:H. destruct (stream_read _ _ _ _ _ _ _ _ _ _ O R1 R3 H) as (S & P & C). cbn [negb] in P, C.
      split; [split; cbn; [exact S|eapply stream_other; eauto|exact F1|destruct eof; auto|destruct eof; auto|]|].
      { rewrite N. destruct eof, (err_done r); reflexivity. }
      cbn. split; [reflexivity|]. split; [reflexivity|]. intros _. auto.
    + destruct (on_data (handed r) true (out_buf r) false) as [c buf] eqn:H. destruct (stream_idle _ _ _ _ _ _ _ _ O H) as (S & P & C). cbn [negb] in P, C.
      split; [split; cbn; [exact S|eapply stream_other; eauto|exact F1|rewrite ?De; exact F0|rewrite ?De; exact A|rewrite ?De; exact N]|]. cbn. split; [reflexivity|]. split; [reflexivity|].
      intros [X|X]; discriminate.
Qed.
Lemma turn_spec o e r x : reader_ok o e r ->
  match turn r x with
  | Fails c => x = PollFails /\ c = handed r \/ exists r' ready oa ea fails p, x = Polled ready oa ea fails /\ fails p = true /\ reader_ok o e r' /\ c = handed r'
  | Goes r' => reader_ok o e r' /\ forall ready oa ea fails, x = Polled ready oa ea fails ->
      (ready POut = true -> out_rest r' = skipn oa (out_rest r) /\ ((length (out_rest r) < oa)%nat -> out_done r' = true)) /\
      (ready PErr = true -> err_rest r' = skipn ea (err_rest r) /\ ((length (err_rest r) < ea)%nat -> err_done r' = true))
  end.
Proof.
  intros R. destruct x as [| |ready oa ea fails]; cbn [turn].
  - split; [exact R|discriminate].
  - left. auto.
  - assert (Rp : reader_ok o e (polled r ready)) by (destruct R; split; auto).
    pose proof (err_part_spec o e (polled r ready) ea (fails PErr) Rp) as E. destruct (err_part _ _ _) as [r1|c].
    + destruct E as (R1 & E1 & E2 & E3 & E4 & E5). pose proof (out_part_spec o e r1 oa (fails POut) R1) as O. destruct (out_part _ _ _) as [r2|c].
      * destruct O as (R2 & O1 & O2 & O3). split; [exact R2|]. intros ready0 oa0 ea0 fails0 X. injection X as <- <- <- <-.
        rewrite O1, O2. rewrite E1 in O3. cbn [polled out_rest err_rest err_done] in O3, E4, E5. destruct R as [S1 S2 F1 F0 A N].
        split; intros Y.
        -- apply O3. rewrite E2, E3. cbn [polled rev0 out_done out_rest]. rewrite N, F0. destruct (out_done r); [right; reflexivity|left; exact Y].
        -- assert (Y' : err_done r = true \/ (if err_at_0 (polled r ready) then rev0 (polled r ready) else rev1 (polled r ready)) = true).
           { cbn [polled err_at_0 rev0 rev1]. rewrite A, N, F0, F1. destruct (err_done r); [left; reflexivity|right]. destruct (out_done r); exact Y. }
           destruct Y' as [Y'|Y']; [|apply E4; exact Y']. destruct (st_done _ _ _ _ _ _ S2 Y') as [_ Z].
           pose proof (E5 Y') as Z1. destruct (st_done _ _ _ _ _ _ (ro_err _ _ _ R1) Z1) as [_ Z2]. rewrite Z2, Z, skipn_nil. auto.
      * right. destruct O as [Of ->]. exists r1, ready, oa, ea, fails, POut. auto.
    + right. destruct E as [Ef ->]. exists (polled r ready), ready, oa, ea, fails, PErr. auto.
Qed.
Lemma start_ok o e : reader_ok o e (Reader o e false false [] [] POut PErr false false false 2 (Collected [] [] [])).
Proof. split; cbn; auto; (split; cbn; [reflexivity|intros []|discriminate|split; [constructor|left; reflexivity]]). Qed.
Lemma read2_spec o e xs : forall r, reader_ok o e r ->
  match read2 r xs with
  | Finished c => exists r', reader_ok o e r' /\ c = handed r' /\ nfds r' = 0%nat
  | Failed c => exists r' x, reader_ok o e r' /\ c = handed r' /\ In x xs /\ (x = PollFails \/ exists ready oa ea fails p, x = Polled ready oa ea fails /\ fails p = true)
  | Reading r' => reader_ok o e r' /\ nfds r' <> 0%nat
  end.
Proof.
  induction xs as [|x xs IH]; intros r R; cbn [read2]; destruct (Nat.eqb_spec (nfds r) 0) as [Z|Z]; eauto.
  pose proof (turn_spec o e r x R) as T. destruct (turn r x) as [r1|c].
  - destruct T as [R1 _]. specialize (IH r1 R1). destruct (read2 r1 xs) as [c|c|r2]; auto.
    destruct IH as (r' & y & H1 & H2 & H3 & H4). exists r', y. split; [exact H1|]. split; [exact H2|]. split; [right; exact H3|exact H4].
  - destruct T as [[-> ->]|(r' & ready & oa & ea & fails & p & -> & Hf & R' & ->)].
    + exists r, PollFails. split; [exact R|]. split; [reflexivity|]. split; [left; reflexivity|auto].
    + exists r', (Polled ready oa ea fails). split; [exact R'|]. split; [reflexivity|]. split; [left; reflexivity|]. right. repeat eexists. exact Hf.
Qed.
Lemma read2_app xs ys : forall r r', read2 r xs = Reading r' -> read2 r (xs ++ ys) = read2 r' ys.
Proof.
  induction xs as [|x xs IH]; intros r r' H; cbn [read2 app] in *.
  - destruct (Nat.eqb (nfds r) 0) eqn:Z; [discriminate|]. injection H as <-. destruct ys; cbn [read2]; rewrite Z; reflexivity.
  - destruct (Nat.eqb (nfds r) 0); [discriminate|]. destruct (turn r x); [|discriminate]. apply IH. exact H.
Qed.
