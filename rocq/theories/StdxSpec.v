(** Specifications for PropStdx.v. *)
From Verif Require Import Base Stdx.
Local Open Scope N_scope.

(** ASCII letters up to case: every text as lower case, without underscores *)
Definition upper_letter (c : char) : Prop := 65 <= c <= 90.
Definition lower (c : char) : char := if (65 <=? c) && (c <=? 90) then c + 32 else c.
Definition letters (t : text) : text := map lower (filter (fun c => negb (c =? 95)) t).

(** Snake case by position: an underscore goes in front of each upper case
    letter that has a predecessor other than an underscore. *)
Fixpoint split_words (prev : option char) (t : text) : text :=
  match t with
  | [] => []
  | c :: r =>
      match prev with
      | Some p => if (65 <=? c) && (c <=? 90) && negb (p =? 95) then [95; c] else [c]
      | None => [c]
      end ++ split_words (Some c) r
  end.

(** Pascal case: the words between underscores, each with its first character
    in upper case and the others in lower case. *)
Definition upper (c : char) : char := if (97 <=? c) && (c <=? 122) then c - 32 else c.
Definition capitalised (w : text) : text := match w with [] => [] | c :: r => upper c :: map lower r end.
(** words written with underscores between them *)
Fixpoint underscored (ws : list text) : text :=
  match ws with [] => [] | [w] => w | w :: rest => w ++ 95 :: underscored rest end.

(** A run of calls of the queue, and the operations started so far. *)
Inductive op_call (R : Type) := Request | ShouldStart | Completed (r : R).
Arguments Request {R}. Arguments ShouldStart {R}. Arguments Completed {R} r.
(** what the caller sees: the answers of should_start_op, in order; [None] if a call panics *)
Fixpoint op_run {R} (q : op_queue R) (cs : list (op_call R)) : option (op_queue R * list (op_call R * bool)) :=
  match cs with
  | [] => Some (q, [])
  | Request :: r => match op_run (request_op q) r with Some (q', a) => Some (q', (Request, false) :: a) | None => None end
  | ShouldStart :: r =>
      let (q1, b) := should_start_op q in
      match op_run q1 r with Some (q', a) => Some (q', (ShouldStart, b) :: a) | None => None end
  | Completed x :: r =>
      match op_completed q x with
      | Ok q1 => match op_run q1 r with Some (q', a) => Some (q', (Completed x, false) :: a) | None => None end
      | _ => None
      end
  end.
(** reading such a history: operations started and not completed, and whether
    a request was made since the last start *)
Fixpoint running {R} (h : list (op_call R * bool)) (n : nat) : nat :=
  match h with
  | [] => n
  | (ShouldStart, true) :: r => running r (S n)
  | (Completed _, _) :: r => running r (pred n)
  | _ :: r => running r n
  end.
Fixpoint pending {R} (h : list (op_call R * bool)) (p : bool) : bool :=
  match h with
  | [] => p
  | (Request, _) :: r => pending r true
  | (ShouldStart, true) :: r => pending r false
  | _ :: r => pending r p
  end.
(** the result of the last completed operation *)
Fixpoint last_result {R} (h : list (op_call R * bool)) (d : R) : R :=
  match h with
  | [] => d
  | (Completed x, _) :: r => last_result r x
  | _ :: r => last_result r d
  end.

(** [occurs p t]: the text [p] occurs in [t] *)
Definition occurs (p t : text) : Prop := exists a b, t = a ++ p ++ b.
(** the white space in a text is ASCII *)
Definition plain_space (t : text) : Prop := Forall (fun c => Lexer.is_white_space c = true -> c < 128) t.
(** lines with their terminators *)
Definition is_line (l : text) : Prop := l <> [] /\ (forall a b, l = a ++ cLF :: b -> b = []).
Definition lines_with_ends (t : text) (ls : list text) : Prop :=
  concat ls = t /\ Forall is_line ls /\ forall a l b, ls = a ++ l :: b -> b <> [] -> exists l0, l = l0 ++ [cLF].
Definition blank (l : text) : Prop := Forall (fun c => Lexer.is_white_space c = true) l.
(** [l] starts with [n] bytes of white space, followed by [r] *)
Definition indented (n : N) (l r : text) : Prop := exists s, l = s ++ r /\ blank s /\ tlen s = n.

(** [Lt] before [Eq] before [Gt] *)
Definition cmp_le (a b : comparison) : Prop :=
  match a, b with Lt, _ => True | Eq, Eq => True | Eq, Gt => True | Gt, Gt => True | _, _ => False end.
