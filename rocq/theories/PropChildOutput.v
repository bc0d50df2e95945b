(** Property C58: the output of a command, handed over line by line. *)
From Coq Require Import String.
From Verif Require Import Base Utf8 Utf8Proofs ChildOutput ChildOutputSpec ChildOutputProofs.
Local Open Scope N_scope.

(** However the output arrives: if the function returns, it returns all bytes
    of both streams, and the callbacks were given exactly their lines, in
    order. *)
Theorem C58_all_lines_once_in_order : forall o e xs c, streaming_output o e xs = Finished c ->
  c_stdout c = o /\ c_stderr c = e /\
  lines_of (lossy o) (calls_of true (c_calls c)) /\ lines_of (lossy e) (calls_of false (c_calls c)).
Proof.
  intros o e xs c H. pose proof (read2_spec o e xs _ (start_ok o e)) as R. unfold streaming_output in H. rewrite H in R.
  destruct R as (r & [[O1 O2 O3 [O4 _]] [E1 E2 E3 [E4 _]] _ _ _ N] & -> & Z). rewrite Z in N.
  destruct (out_done r); [|discriminate]. destruct (err_done r); [|discriminate].
  destruct (O3 eq_refl) as [Ob Or]. destruct (E3 eq_refl) as [Eb Er]. rewrite Ob, Or in O1. rewrite Eb, Er in E1.
  cbn [part app] in *. rewrite ?app_nil_r in O1, E1. rewrite O1, E1. auto.
Qed.
(** Bytes that are UTF-8 are decoded as such. *)
Theorem C58_text_is_decoded : forall t, scalars t -> lossy (encode t) = t.
Proof. exact lossy_encode. Qed.
(** While it runs, every complete line among the bytes read so far has been
    handed over, and nothing else. *)
Theorem C58_lines_are_prompt : forall o e xs r, streaming_output o e xs = Reading r ->
  (exists whole begun, o = whole ++ begun ++ out_rest r /\ ~ In 10 begun /\ (at_boundary whole \/ begun ++ out_rest r = []) /\
     lines_of (lossy whole) (calls_of true (c_calls (handed r)))) /\
  (exists whole begun, e = whole ++ begun ++ err_rest r /\ ~ In 10 begun /\ (at_boundary whole \/ begun ++ err_rest r = []) /\
     lines_of (lossy whole) (calls_of false (c_calls (handed r)))).
Proof.
  intros o e xs r H. pose proof (read2_spec o e xs _ (start_ok o e)) as R. unfold streaming_output in H. rewrite H in R.
  destruct R as [[[O1 O2 O3 [O4 O5]] [E1 E2 E3 [E4 E5]] _ _ _ _] _]. split.
  - exists (c_stdout (handed r)), (out_buf r). split; [exact O1|]. split; [exact O2|]. split; [|exact O4].
    destruct (out_done r); [right; destruct (O3 eq_refl) as [-> ->]; reflexivity|left; auto].
  - exists (c_stderr (handed r)), (err_buf r). split; [exact E1|]. split; [exact E2|]. split; [|exact E4].
    destruct (err_done r); [right; destruct (E3 eq_refl) as [-> ->]; reflexivity|left; auto].
Qed.
(** It only fails if poll or a read fails; what was handed over by then is the
    beginning of the lines. *)
Theorem C58_failures : forall o e xs c, streaming_output o e xs = Failed c ->
  (exists x, In x xs /\ (x = PollFails \/ exists ready oa ea fails p, x = Polled ready oa ea fails /\ fails p = true)) /\
  (exists whole rest, o = whole ++ rest /\ (at_boundary whole \/ rest = []) /\ lines_of (lossy whole) (calls_of true (c_calls c))) /\
  (exists whole rest, e = whole ++ rest /\ (at_boundary whole \/ rest = []) /\ lines_of (lossy whole) (calls_of false (c_calls c))).
Proof.
  intros o e xs c H. pose proof (read2_spec o e xs _ (start_ok o e)) as R. unfold streaming_output in H. rewrite H in R.
  destruct R as (r & x & [[O1 O2 O3 [O4 O5]] [E1 E2 E3 [E4 E5]] _ _ _ _] & -> & Hin & Hx). split; [eauto|]. split.
  - exists (c_stdout (handed r)), (out_buf r ++ out_rest r). split; [exact O1|]. split; [|exact O4].
    destruct (out_done r); [right; destruct (O3 eq_refl) as [-> ->]; reflexivity|left; auto].
  - exists (c_stderr (handed r)), (err_buf r ++ err_rest r). split; [exact E1|]. split; [|exact E4].
    destruct (err_done r); [right; destruct (E3 eq_refl) as [-> ->]; reflexivity|left; auto].
Qed.
(** Neither pipe is ever forgotten, whichever of them ends first: what poll
    reports is read. *)
Theorem C58_no_pipe_is_forgotten : forall o e xs r ready oa ea fails r',
  streaming_output o e xs = Reading r -> turn r (Polled ready oa ea fails) = Goes r' ->
  (ready POut = true -> out_rest r' = skipn oa (out_rest r)) /\ (ready PErr = true -> err_rest r' = skipn ea (err_rest r)).
Proof.
  intros o e xs r ready oa ea fails r' H T. pose proof (read2_spec o e xs _ (start_ok o e)) as R. unfold streaming_output in H. rewrite H in R.
  destruct R as [R _]. pose proof (turn_spec o e r (Polled ready oa ea fails) R) as S. rewrite T in S. destruct S as [_ S].
  destruct (S _ _ _ _ eq_refl) as [S1 S2]. split; intros X; [apply S1|apply S2]; exact X.
Qed.
(** So it returns as soon as it has been able to read both to their ends, in
    whatever order they end. *)
Theorem C58_returns_when_both_ended : forall o e xs r, streaming_output o e xs = Reading r ->
  (exists c, streaming_output o e (xs ++ [Polled (fun _ => true) (S (length o)) (S (length e)) (fun _ => false)]) = Finished c) /\
  (exists c, streaming_output o e (xs ++ [Polled (fun p => match p with POut => true | PErr => false end) (S (length o)) 0 (fun _ => false);
                                         Polled (fun p => match p with POut => false | PErr => true end) 0 (S (length e)) (fun _ => false)]) = Finished c) /\
  (exists c, streaming_output o e (xs ++ [Polled (fun p => match p with POut => false | PErr => true end) 0 (S (length e)) (fun _ => false);
                                         Polled (fun p => match p with POut => true | PErr => false end) (S (length o)) 0 (fun _ => false)]) = Finished c).
Proof.
  intros o e xs r H. pose proof (read2_spec o e xs _ (start_ok o e)) as R. unfold streaming_output in *. rewrite H in R. destruct R as [R Nz].
  rewrite !(read2_app _ _ _ _ H).
  assert (Len : forall r1, reader_ok o e r1 -> (length (out_rest r1) < S (length o))%nat /\ (length (err_rest r1) < S (length e))%nat).
  { intros r1 [[O1 _ _ _] [E1 _ _ _] _ _ _ _]. rewrite O1, E1 at 1. rewrite !app_length. lia. }
  assert (Fin : forall r1 xs1, reader_ok o e r1 -> out_done r1 = true -> err_done r1 = true -> read2 r1 xs1 = Finished (handed r1)).
  { intros r1 xs1 [_ _ _ _ _ N] D1 D2. rewrite D1, D2 in N. destruct xs1; cbn [read2]; rewrite N; reflexivity. }
  assert (Go : forall r1 ready oa ea, reader_ok o e r1 -> exists r2, turn r1 (Polled ready oa ea (fun _ => false)) = Goes r2 /\ reader_ok o e r2 /\
    (ready POut = true -> (length (out_rest r1) < oa)%nat -> out_done r2 = true) /\ (ready PErr = true -> (length (err_rest r1) < ea)%nat -> err_done r2 = true)).
  { intros r1 ready oa ea R1. pose proof (turn_spec o e r1 (Polled ready oa ea (fun _ => false)) R1) as S. destruct (turn r1 _) as [r2|c].
    - destruct S as [R2 S]. destruct (S _ _ _ _ eq_refl) as [S1 S2]. exists r2. split; [reflexivity|]. split; [exact R2|]. split; intros X; [apply S1|apply S2]; exact X.
    - destruct S as [[X _]|(r' & a & b & c' & f & p & X & F & _)]; [discriminate|]. injection X as _ _ _ <-. discriminate. }
  assert (Done : forall r1 r2 ready oa ea, reader_ok o e r1 -> turn r1 (Polled ready oa ea (fun _ => false)) = Goes r2 -> reader_ok o e r2 ->
    (out_done r1 = true -> out_done r2 = true) /\ (err_done r1 = true -> err_done r2 = true)).
  { intros r1 r2 ready oa ea R1 T R2. cbn [turn] in T. assert (Rp : reader_ok o e (polled r1 ready)) by (destruct R1; split; auto).
    pose proof (err_part_spec o e (polled r1 ready) ea false Rp) as E. destruct (err_part _ _ _) as [r3|]; [|discriminate].
    destruct E as (R3 & _ & E2 & _ & _ & E5). pose proof (out_part_spec o e r3 oa false R3) as O. rewrite T in O. destruct O as (_ & _ & O2 & _).
    cbn [polled out_done err_done] in *. split; [|intros X; rewrite O2; apply E5; exact X]. intros X. rewrite X in E2.
    unfold out_part in T. rewrite E2 in T. cbn [negb andb] in T. destruct (on_data _ _ _ _). injection T as <-. cbn. reflexivity. }
  destruct (Len r R) as [L1 L2]. split; [|split].
  - destruct (Go r (fun _ => true) (S (length o)) (S (length e)) R) as (r2 & T & R2 & D1 & D2).
    exists (handed r2). cbn [read2]. destruct (Nat.eqb_spec (nfds r) 0); [contradiction|]. rewrite T.
    rewrite (ro_nfds _ _ _ R2), D1, D2 by auto. reflexivity.
  - destruct (Go r (fun p => match p with POut => true | PErr => false end) (S (length o)) 0%nat R) as (r2 & T & R2 & D1 & _).
    specialize (D1 eq_refl L1). cbn [read2]. destruct (Nat.eqb_spec (nfds r) 0); [contradiction|]. rewrite T.
    destruct (Nat.eqb_spec (nfds r2) 0); [eauto|]. destruct (Len r2 R2) as [_ L2'].
    destruct (Go r2 (fun p => match p with POut => false | PErr => true end) 0%nat (S (length e)) R2) as (r3 & T3 & R3 & _ & D2). rewrite T3.
    destruct (Done _ _ _ _ _ R2 T3 R3) as [K _]. exists (handed r3). rewrite (ro_nfds _ _ _ R3), (K D1), D2 by auto. reflexivity.
  - destruct (Go r (fun p => match p with POut => false | PErr => true end) 0%nat (S (length e)) R) as (r2 & T & R2 & _ & D2).
    specialize (D2 eq_refl L2). cbn [read2]. destruct (Nat.eqb_spec (nfds r) 0); [contradiction|]. rewrite T.
    destruct (Nat.eqb_spec (nfds r2) 0); [eauto|]. destruct (Len r2 R2) as [L1' _].
    destruct (Go r2 (fun p => match p with POut => true | PErr => false end) (S (length o)) 0%nat R2) as (r3 & T3 & R3 & D1 & _). rewrite T3.
    destruct (Done _ _ _ _ _ R2 T3 R3) as [_ K]. exists (handed r3). rewrite (ro_nfds _ _ _ R3), (K D2), D1 by auto. reflexivity.
Qed.

(** ** The hypotheses are met *)
Definition two_lines : list N := encode (`"caf" ++ [233; 13; 10] ++ `"rest").
Definition only_out : pipe -> bool := fun p => match p with POut => true | PErr => false end.
(** the output comes in pieces, one of which ends inside a character; the other
    stream ends first *)
Definition pieces : list round :=
  [Polled only_out 4 0 (fun _ => false); Interrupted; Polled (fun _ => true) 1 9 (fun _ => false); Polled only_out 4 0 (fun _ => false)].
Example pieces_reading : exists r, streaming_output two_lines (encode (`"oops")) pieces = Reading r /\
  calls_of true (c_calls (handed r)) = [`"caf" ++ [233]] /\ calls_of false (c_calls (handed r)) = [`"oops"] /\ out_rest r = encode (`"st").
Proof. eexists. split; [vm_compute; reflexivity|]. split; [|split]; vm_compute; reflexivity. Qed.
Example pieces_finished : exists c, streaming_output two_lines (encode (`"oops")) (pieces ++ [Polled only_out 9 0 (fun _ => false)]) = Finished c /\
  calls_of true (c_calls c) = [`"caf" ++ [233]; `"rest"] /\ c_stdout c = two_lines.
Proof. eexists. split; [vm_compute; reflexivity|]. split; vm_compute; reflexivity. Qed.
Example pieces_failed : exists c, streaming_output two_lines (encode (`"oops")) (pieces ++ [Polled only_out 9 0 (fun _ => true)]) = Failed c /\
  calls_of true (c_calls c) = [`"caf" ++ [233]].
Proof. eexists. split; [vm_compute; reflexivity|]. vm_compute; reflexivity. Qed.
Example bad_bytes : lossy [0x61; 0xC3; 0x0A; 0xE2; 0x82; 0x62; 0xFF] = [0x61; 0xFFFD; 0x0A; 0xFFFD; 0x62; 0xFFFD].
Proof. reflexivity. Qed.

Print Assumptions C58_all_lines_once_in_order.
Print Assumptions C58_text_is_decoded.
Print Assumptions C58_lines_are_prompt.
Print Assumptions C58_failures.
Print Assumptions C58_no_pipe_is_forgotten.
Print Assumptions C58_returns_when_both_ended.
