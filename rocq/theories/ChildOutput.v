(** Model of crates/stdx/src/process.rs (Unix): running a command while its
    output is handed over line by line.  The command is what it writes to its
    two pipes; the kernel's part (what poll reports and how many bytes are there
    to be read) is the schedule. *)
From Verif Require Import Base Utf8.
Local Open Scope N_scope.

(** Rust core: String::from_utf8_lossy.  An invalid sequence is replaced by
    U+FFFD up to the first byte that cannot continue it. *)
Definition between (a b x : N) : bool := (a <=? x) && (x <=? b).
Definition replacement : char := 0xFFFD.
Fixpoint lossy (l : list N) : text :=
  match l with
  | [] => []
  | b0 :: r0 =>
      if b0 <? 0x80 then b0 :: lossy r0
      else if between 0xC2 0xDF b0 then
        match r0 with
        | b1 :: r1 => if is_cont b1 then ((b0 - 0xC0) * 64 + (b1 - 0x80)) :: lossy r1 else replacement :: lossy r0
        | [] => [replacement]
        end
      else if between 0xE0 0xEF b0 then
        match r0 with
        | b1 :: r1 =>
            if (if b0 =? 0xE0 then between 0xA0 0xBF b1 else if b0 =? 0xED then between 0x80 0x9F b1 else is_cont b1)
            then match r1 with
                 | b2 :: r2 => if is_cont b2 then ((b0 - 0xE0) * 4096 + (b1 - 0x80) * 64 + (b2 - 0x80)) :: lossy r2
                               else replacement :: lossy r1
                 | [] => [replacement]
                 end
            else replacement :: lossy r0
        | [] => [replacement]
        end
      else if between 0xF0 0xF4 b0 then
        match r0 with
        | b1 :: r1 =>
            if (if b0 =? 0xF0 then between 0x90 0xBF b1 else if b0 =? 0xF4 then between 0x80 0x8F b1 else is_cont b1)
            then match r1 with
                 | b2 :: r2 =>
                     if is_cont b2
                     then match r2 with
                          | b3 :: r3 =>
                              if is_cont b3
                              then ((b0 - 0xF0) * 262144 + (b1 - 0x80) * 4096 + (b2 - 0x80) * 64 + (b3 - 0x80)) :: lossy r3
                              else replacement :: lossy r2
                          | [] => [replacement]
                          end
                     else replacement :: lossy r1
                 | [] => [replacement]
                 end
            else replacement :: lossy r0
        | [] => [replacement]
        end
      else replacement :: lossy r0
  end.

(** Rust core: str::lines, pieces ended by [\n] (the last one may lack it), each
    without one trailing [\r] *)
Fixpoint strip_cr (l : text) : text :=
  match l with
  | [] => []
  | [c] => if c =? 13 then [] else [c]
  | c :: r => c :: strip_cr r
  end.
Fixpoint split_terminator (cur : text) (t : text) : list text :=
  match t with
  | [] => match cur with [] => [] | _ => [rev cur] end
  | c :: r => if c =? 10 then rev cur :: split_terminator [] r else split_terminator (c :: cur) r
  end.
Definition str_lines (t : text) : list text := map strip_cr (split_terminator [] t).

(** Rust core: [data.iter().rposition(|b| *b == b'\n')] *)
Fixpoint rposition_lf (l : list N) : option nat :=
  match l with
  | [] => None
  | b :: r => match rposition_lf r with
              | Some i => Some (S i)
              | None => if b =? 10 then Some O else None
              end
  end.

(** What streaming_output has collected: the two results and the calls of the
    two callbacks (process.rs:16-17, 12-14) *)
Record collected := Collected { c_stdout : list N; c_stderr : list N; c_calls : list (bool * text) }.

(** process.rs:26-52: the callback [data]; gives back what is left in the buffer *)
Definition on_data (c : collected) (is_out : bool) (data : list N) (eof : bool) : collected * list N :=
  let idx := if eof then Some (length data)
             else match rposition_lf data with Some i => Some (i + 1)%nat | None => None end in
  match idx with
  | None => (c, data)
  | Some idx =>
      let new_lines := firstn idx data in
      let calls := c_calls c ++ map (pair is_out) (str_lines (lossy new_lines)) in
      (if is_out then Collected (c_stdout c ++ new_lines) (c_stderr c) calls
       else Collected (c_stdout c) (c_stderr c ++ new_lines) calls,
       skipn idx data)
  end.

Inductive pipe := POut | PErr.

(** process.rs:78-91: the local variables of read2, the rest of what the command
    writes to each pipe, and what was handed over.  [fd0] and [fd1] are
    [fds[0].fd] and [fds[1].fd], [rev0] and [rev1] their [revents]; [err_at_0] is
    [errfd == 0]. *)
Record reader := Reader {
  out_rest : list N; err_rest : list N;
  out_done : bool; err_done : bool; out_buf : list N; err_buf : list N;
  fd0 : pipe; fd1 : pipe; rev0 : bool; rev1 : bool; err_at_0 : bool; nfds : nat;
  handed : collected }.

(** One round of the schedule: poll is interrupted, fails, or reports for each
    pipe whether there is anything; then so many bytes are there.  A read that
    asks for more than there will ever be meets the end; one may also fail. *)
Inductive round :=
| Interrupted
| PollFails
| Polled (ready : pipe -> bool) (out_avail err_avail : nat) (fails : pipe -> bool).

(** [read_to_end] on a pipe in non-blocking mode: the bytes and whether the end
    was reached; otherwise the error is EWOULDBLOCK *)
Definition read_to_end (rest : list N) (avail : nat) : list N * list N * bool :=
  (firstn avail rest, skipn avail rest, Nat.ltb (length rest) avail).

Inductive progress := Goes (r : reader) | Fails (c : collected).

(** process.rs:113-123 *)
Definition err_part (r : reader) (avail : nat) (fails : bool) : progress :=
  if negb (err_done r) && (if err_at_0 r then rev0 r else rev1 r) then
    if fails then Fails (handed r) else
    let '(got, rest, eof) := read_to_end (err_rest r) avail in
    let '(c, buf) := on_data (handed r) false (err_buf r ++ got) eof in
    Goes (Reader (out_rest r) rest (out_done r) eof (out_buf r) buf (fd0 r) (fd1 r) (rev0 r) (rev1 r) (err_at_0 r)
                 (if eof then nfds r - 1 else nfds r)%nat c)
  else
    let '(c, buf) := on_data (handed r) false (err_buf r) (err_done r) in
    Goes (Reader (out_rest r) (err_rest r) (out_done r) (err_done r) (out_buf r) buf (fd0 r) (fd1 r) (rev0 r) (rev1 r) (err_at_0 r) (nfds r) c).
(** process.rs:124-130 *)
Definition out_part (r : reader) (avail : nat) (fails : bool) : progress :=
  if negb (out_done r) && rev0 r then
    if fails then Fails (handed r) else
    let '(got, rest, eof) := read_to_end (out_rest r) avail in
    let '(c, buf) := on_data (handed r) true (out_buf r ++ got) eof in
    Goes (Reader rest (err_rest r) eof (err_done r) buf (err_buf r) (if eof then PErr else fd0 r) (fd1 r) (rev0 r) (rev1 r)
                 (if eof then true else err_at_0 r) (if eof then nfds r - 1 else nfds r)%nat c)
  else
    let '(c, buf) := on_data (handed r) true (out_buf r) (out_done r) in
    Goes (Reader (out_rest r) (err_rest r) (out_done r) (err_done r) buf (err_buf r) (fd0 r) (fd1 r) (rev0 r) (rev1 r) (err_at_0 r) (nfds r) c).

(** process.rs:95-102: poll fills in [revents] of the first [nfds] entries *)
Definition polled (r : reader) (ready : pipe -> bool) : reader :=
  Reader (out_rest r) (err_rest r) (out_done r) (err_done r) (out_buf r) (err_buf r) (fd0 r) (fd1 r)
    (if Nat.ltb 0 (nfds r) then ready (fd0 r) else rev0 r) (if Nat.ltb 1 (nfds r) then ready (fd1 r) else rev1 r)
    (err_at_0 r) (nfds r) (handed r).

(** process.rs:93-131, one turn of the loop *)
Definition turn (r : reader) (x : round) : progress :=
  match x with
  | Interrupted => Goes r
  | PollFails => Fails (handed r)
  | Polled ready oa ea fails =>
      match err_part (polled r ready) ea (fails PErr) with
      | Fails c => Fails c
      | Goes r1 => out_part r1 oa (fails POut)
      end
  end.

(** The loop; [Reading] if the schedule ends before the loop does *)
Inductive result := Finished (c : collected) | Failed (c : collected) | Reading (r : reader).
Fixpoint read2 (r : reader) (xs : list round) : result :=
  if Nat.eqb (nfds r) 0 then Finished (handed r)
  else match xs with
       | [] => Reading r
       | x :: xs => match turn r x with Goes r' => read2 r' xs | Fails c => Failed c end
       end.

(** process.rs:11-56 [streaming_output] of a command that writes [o] and [e];
    spawning and waiting succeed *)
Definition streaming_output (o e : list N) (xs : list round) : result :=
  read2 (Reader o e false false [] [] POut PErr false false false 2 (Collected [] [] [])) xs.
