(** Model of crates/stdx/src/lib.rs, crates/move_language_server/src/op_queue.rs
    and the marker helpers of crates/test_utils/src/lib.rs. *)
From Coq Require Import String.
From Verif Require Import Base Lexer.
Local Open Scope N_scope.

(** core: [char::is_ascii_uppercase], [to_ascii_uppercase], [to_ascii_lowercase] *)
Definition is_ascii_uppercase (c : char) : bool := (65 <=? c) && (c <=? 90).
Definition is_ascii_lowercase (c : char) : bool := (97 <=? c) && (c <=? 122).
Definition to_ascii_uppercase (c : char) : char := if is_ascii_lowercase c then c - 32 else c.
Definition to_ascii_lowercase (c : char) : char := if is_ascii_uppercase c then c + 32 else c.
Definition cUnder : char := 95.

(** stdx/src/lib.rs:36-50 [to_pascal_case]: the loop, from the value of
    [prev_is_underscore] on; the characters pushed to [buf] are the result *)
Fixpoint pascal_loop (prev_is_underscore : bool) (s : text) : text :=
  match s with
  | [] => []
  | c :: r =>
      if c =? cUnder then pascal_loop true r
      else if prev_is_underscore then to_ascii_uppercase c :: pascal_loop false r
      else to_ascii_lowercase c :: pascal_loop false r
  end.
Definition to_pascal_case (s : text) : text := pascal_loop true s.

(** stdx/src/lib.rs:58-75 [to_snake_case]: the loop, with [buf] reversed
    ([buf.ends_with('_')] looks at its head) *)
Fixpoint snake_loop (change_case : char -> char) (prev : bool) (rbuf : text) (s : text) : text :=
  match s with
  | [] => rev rbuf
  | c :: r =>
      let rbuf :=
        if is_ascii_uppercase c && prev
        then (if match rbuf with x :: _ => x =? cUnder | [] => false end then rbuf else cUnder :: rbuf)
        else rbuf in
      snake_loop change_case true (change_case c :: rbuf) r
  end.
Definition to_snake_case (s : text) (change_case : char -> char) : text :=
  snake_loop change_case false [] s.
(** stdx/src/lib.rs:52-57 *)
Definition to_lower_snake_case (s : text) : text := to_snake_case s to_ascii_lowercase.
Definition to_upper_snake_case (s : text) : text := to_snake_case s to_ascii_uppercase.

(** core: [str::split_inclusive('\n')]: pieces end after each '\n'; no empty last piece *)
Fixpoint split_inclusive (t : text) : list text :=
  match t with
  | [] => []
  | c :: r =>
      if c =? cLF then [c] :: split_inclusive r
      else match split_inclusive r with
           | [] => [[c]]
           | l :: ls => (c :: l) :: ls
           end
  end.
(** core: [str::trim_start_matches(' ')] *)
Fixpoint trim_spaces (t : text) : text :=
  match t with c :: r => if c =? 32 then trim_spaces r else t | [] => [] end.

(** stdx/src/lib.rs:84-105 [trim_indent].  [text.lines()] is taken as
    [split_inclusive]: its items differ only in the line terminator, which is
    white space at the end of the line, so that [trim] is empty for the same
    lines and [len - trim_start().len()] is the same for the others. *)
Definition is_blank_line (l : text) : bool := match trim_start l with [] => true | _ => false end.
Definition line_indent (l : text) : N := tlen l - tlen (trim_start l).
Definition min_list (l : list N) : N :=
  match l with [] => 0 | x :: r => fold_left N.min r x end.
Definition strip_first_lf (t : text) : text :=
  match t with c :: r => if c =? cLF then r else t | [] => t end.
Definition common_indent (t : text) : N :=
  min_list (map line_indent (filter (fun l => negb (is_blank_line l)) (split_inclusive t))).
Definition trim_line (indent : N) (line : text) : res text :=
  if tlen line <=? indent then Ok (trim_spaces line) else slice_from line indent.
Fixpoint map_res {A B} (f : A -> res B) (l : list A) : res (list B) :=
  match l with
  | [] => Ok []
  | x :: r => let! y := f x in let! ys := map_res f r in Ok (y :: ys)
  end.
Definition trim_indent (t : text) : res text :=
  let t := strip_first_lf t in
  let! ls := map_res (trim_line (common_indent t)) (split_inclusive t) in
  Ok (concat ls).

(** core (1.5x): [slice::partition_point] by [binary_search_by] with
    [if pred(x) { Less } else { Greater }]; [left], [right] and [size = right -
    left] are the variables of the loop, [fuel] bounds its iterations *)
Fixpoint search {A} (pred : A -> bool) (l : list A) (fuel left right : nat) : res nat :=
  match fuel with
  | O => Fuel
  | S fuel =>
      if Nat.ltb left right then
        let mid := (left + (right - left) / 2)%nat in
        let! x := index (nth_error l mid) in
        if pred x then search pred l fuel (S mid) right
        else search pred l fuel left mid
      else Ok left
  end.
Definition partition_point_search {A} (pred : A -> bool) (l : list A) : res nat :=
  search pred l (S (length l)) 0 (length l).

(** stdx/src/lib.rs:107-114 [equal_range_by] *)
Definition is_lt (c : comparison) : bool := match c with Lt => true | _ => false end.
Definition is_eq (c : comparison) : bool := match c with Eq => true | _ => false end.
Definition equal_range_by {A} (l : list A) (key : A -> comparison) : res (nat * nat) :=
  let! start := partition_point_search (fun it => is_lt (key it)) l in
  let! _ := (if Nat.leb start (length l) then Ok tt else Panic PIndex) in
  let! len := partition_point_search (fun it => is_eq (key it)) (skipn start l) in
  Ok (start, (start + len)%nat).

(** stdx/src/lib.rs:165-189 [iter_eq_by] *)
Fixpoint iter_eq_by {A B} (eq : A -> B -> bool) (this : list A) (other : list B) : bool :=
  match this with
  | [] => match other with [] => true | _ => false end
  | x :: this => match other with
                 | [] => false
                 | y :: other => if eq x y then iter_eq_by eq this other else false
                 end
  end.

(** ** op_queue.rs *)
Record op_queue (R : Type) := OpQueue { op_requested : bool; op_in_progress : bool; last_op_result : R }.
Arguments OpQueue {R}. Arguments op_requested {R}. Arguments op_in_progress {R}. Arguments last_op_result {R}.
(** op_queue.rs:10-14 *)
Definition op_queue_default {R} (d : R) : op_queue R := OpQueue false false d.
(** op_queue.rs:17-19 *)
Definition request_op {R} (q : op_queue R) : op_queue R := OpQueue true (op_in_progress q) (last_op_result q).
(** op_queue.rs:20-27 *)
Definition should_start_op {R} (q : op_queue R) : op_queue R * bool :=
  if op_in_progress q then (q, false)
  else (OpQueue false (op_requested q) (last_op_result q), op_requested q).
(** op_queue.rs:28-32 *)
Definition op_completed {R} (q : op_queue R) (r : R) : res (op_queue R) :=
  let! _ := assert_ (op_in_progress q) in Ok (OpQueue (op_requested q) false r).

(** ** test_utils/src/lib.rs *)
(** core: [str::find] of a string; the byte offset of the first occurrence *)
Fixpoint find_str (p t : text) : option N :=
  if starts_with t p then Some 0 else
  match t with
  | [] => None
  | c :: r => match find_str p r with Some n => Some (utf8_len c + n) | None => None end
  end.
Definition CURSOR_MARKER : text := `"$0".
(** test_utils/src/lib.rs:68-75 [try_extract_offset]; [as u32] truncates *)
Definition try_extract_offset (t : text) : res (option (N * text)) :=
  match find_str CURSOR_MARKER t with
  | None => Ok None
  | Some cursor_pos =>
      let! a := slice_to t cursor_pos in
      let! b := slice_from t (cursor_pos + tlen CURSOR_MARKER) in
      Ok (Some (cursor_pos mod u32_bound, a ++ b))
  end.
(** test_utils/src/lib.rs:59-64 [extract_offset] *)
Definition extract_offset (t : text) : res (N * text) :=
  let! o := try_extract_offset t in
  match o with None => Panic PUnreachable | Some r => Ok r end.
(** test_utils/src/lib.rs:87-91 [try_extract_range]; [TextRange::new] asserts [start <= end] *)
Definition try_extract_range (t : text) : res (option (N * N * text)) :=
  let! o := try_extract_offset t in
  match o with
  | None => Ok None
  | Some (start, t) =>
      let! o := try_extract_offset t in
      match o with
      | None => Ok None
      | Some (end_, t) => let! _ := assert_ (start <=? end_) in Ok (Some (start, end_, t))
      end
  end.
(** test_utils/src/lib.rs:78-83 [extract_range] *)
Definition extract_range (t : text) : res (N * N * text) :=
  let! o := try_extract_range t in
  match o with None => Panic PUnreachable | Some r => Ok r end.
(** test_utils/src/lib.rs:133-139 [extract_range_or_offset]: a range or an offset *)
Definition extract_range_or_offset (t : text) : res ((N * N + N) * text) :=
  let! o := try_extract_range t in
  match o with
  | Some (s, e, t) => Ok (inl (s, e), t)
  | None => let! (o, t) := extract_offset t in Ok (inr o, t)
  end.
(** test_utils/src/lib.rs:190-197 [add_cursor] *)
Definition add_cursor (t : text) (offset : N) : res text :=
  let! a := slice_to t offset in
  let! b := slice_from t offset in
  Ok (a ++ CURSOR_MARKER ++ b).
