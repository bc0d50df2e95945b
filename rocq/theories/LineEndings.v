(** Model of LineEndings::normalize,
    crates/move_language_server/src/line_index.rs:21-68. *)
From Verif Require Import Base Utf8.
Local Open Scope N_scope.

(** :22-25 *)
Inductive endings := Unix | Dos.

(** :64-66 [find_crlf]: first index of the window [\r; \n]. *)
Fixpoint find_crlf (l : bytes) : option nat :=
  match l with
  | a :: ((b :: _) as r) =>
      if (a =? cCR) && (b =? cLF) then Some O else option_map S (find_crlf r)
  | _ => None
  end.

(** :42-53, the gap loop.  [done] is the part of the buffer before [tail]
    (already final), [gap] is [gap_len].  [copy_within(gap..idx, 0)] writes
    [tail[gap..idx]] to the front of [tail]; the slice indices are always in
    range because [gap <= len tail] (checked: PIndex otherwise). *)
Fixpoint norm_loop (fuel : nat) (done tail : bytes) (gap : nat) : res (bytes * nat) :=
  match fuel with
  | O => Fuel
  | S fuel' =>
      if (gap <=? length tail)%nat then
        let idx := match find_crlf (skipn gap tail) with
                   | None => length tail
                   | Some i => (i + gap)%nat
                   end in
        let moved := firstn (idx - gap) (skipn gap tail) in
        let tail1 := moved ++ skipn (idx - gap) tail in      (* after copy_within *)
        let done' := done ++ firstn (idx - gap) tail1 in
        let tail' := skipn (idx - gap) tail1 in
        if (length tail' =? gap)%nat then Ok (done' ++ tail', gap)
        else norm_loop fuel' done' tail' (S gap)
      else Panic PIndex
  end.

(** :29-62 [LineEndings::normalize].  [from_utf8_unchecked] on bytes that are
    not valid UTF-8 would be undefined behaviour; it is modelled as a panic,
    so that the theorem "never panics" includes its safety condition. *)
Definition normalize (src : text) : res (text * endings) :=
  let buf := encode src in
  if negb (existsb (fun b => b =? cCR) buf) then Ok (src, Unix)
  else
    let! (buf', gap) := norm_loop (S (length buf)) [] buf 0 in
    match decode (firstn (length buf' - gap) buf') with
    | Some t => Ok (t, Dos)
    | None => Panic PUnreachable
    end.

(** ** Specification *)
Fixpoint crlf_to_lf (t : list N) : list N :=
  match t with
  | [] => []
  | a :: r =>
      match r with
      | b :: r' => if (a =? cCR) && (b =? cLF) then b :: crlf_to_lf r' else a :: crlf_to_lf r
      | [] => [a]
      end
  end.
