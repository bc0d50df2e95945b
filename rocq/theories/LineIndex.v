(** Model of crates/ide_db/src/line_index.rs (LineIndex), and of the position
    conversions in crates/move_language_server/src/{from_proto,to_proto}.rs. *)
From Verif Require Import Base.
Local Open Scope N_scope.

(** ide_db/src/line_index.rs:33-38 [Utf16Char]: a non-ASCII character of a
    line, byte columns. *)
Record utf16char := { uc_start : N; uc_end : N }.

(** :42-44 [Utf16Char::len] *)
Definition uc_len (c : utf16char) : N := uc_end c - uc_start c.
(** :47-53 [Utf16Char::len_utf16] *)
Definition uc_len_utf16 (c : utf16char) : N := if uc_len c =? 4 then 2 else 1.

(** :9-14 [LineIndex]; the FxHashMap is an association list. *)
Record line_index := {
  newlines : list N;
  utf16_lines : list (N * list utf16char)
}.

(** :17-30 [LineCol] and [LineColUtf16] *)
Record line_col := { lc_line : N; lc_col : N }.

(** Loop state of [LineIndex::new], :58-64. *)
Record li_state := {
  st_newlines : list N;
  st_lines : list (N * list utf16char);
  st_chars : list utf16char;
  st_row : N;
  st_col : N;
  st_line : N
}.

(** :72-75 and :91-93, saving the characters of a finished line. *)
Definition li_save (s : li_state) : list (N * list utf16char) :=
  match st_chars s with
  | [] => st_lines s
  | cs => ainsert N.eqb (st_line s) cs (st_lines s)
  end.

(** :65-88, one iteration of the loop over [text.chars()]. *)
Definition li_step (s : li_state) (c : char) : li_state :=
  let c_len := utf8_len c in
  let row := st_row s + c_len in
  if c =? cLF then
    {| st_newlines := st_newlines s ++ [row];
       st_lines := li_save s;
       st_chars := [];
       st_row := row; st_col := 0; st_line := st_line s + 1 |}
  else
    {| st_newlines := st_newlines s;
       st_lines := st_lines s;
       st_chars := if c <? 128 then st_chars s
                   else st_chars s ++ [{| uc_start := st_col s; uc_end := st_col s + c_len |}];
       st_row := row; st_col := st_col s + c_len; st_line := st_line s |}.

Definition li_init : li_state :=
  {| st_newlines := [0]; st_lines := []; st_chars := []; st_row := 0; st_col := 0; st_line := 0 |}.

Definition li_build (t : text) : line_index :=
  let s := fold_left li_step t li_init in
  {| newlines := st_newlines s; utf16_lines := li_save s |}.

(** :57-96 [LineIndex::new].  TextSize is u32: [curr_row += c_len] overflows
    (and panics, debug profile) as soon as the byte length of the prefix read
    reaches 2^32, i.e. exactly when the whole text is that long. *)
Definition li_new (t : text) : res line_index :=
  if tlen t <? u32_bound then Ok (li_build t) else Panic POverflow.

(** :98-103 [LineIndex::line_col].  [partition_point - 1] is a usize
    subtraction, [self.newlines[line]] an index, [offset - start] a u32
    subtraction. *)
Definition li_line_col (li : line_index) (offset : N) : res line_col :=
  match partition_point (fun it => it <=? offset) (newlines li) with
  | O => Panic POverflow
  | S line =>
      let! start := index (nth_error (newlines li) line) in
      let! col := u32_sub offset start in
      Ok {| lc_line := N.of_nat line; lc_col := col |}
  end.

(** :105-107 [LineIndex::offset] *)
Definition li_offset (li : line_index) (p : line_col) : res N :=
  let! start := index (nth_error (newlines li) (N.to_nat (lc_line p))) in
  u32_add start (lc_col p).

(** :132-146 [utf8_to_utf16_col]; [usize] subtractions. *)
Fixpoint utf8_to_utf16_loop (cs : list utf16char) (col r : N) : res N :=
  match cs with
  | [] => Ok r
  | c :: cs' =>
      if uc_end c <=? col then
        let! d := u32_sub (uc_len c) (uc_len_utf16 c) in
        let! r' := u32_sub r d in
        utf8_to_utf16_loop cs' col r'
      else Ok r
  end.
Definition utf8_to_utf16_col (li : line_index) (line col : N) : res N :=
  match alookup N.eqb line (utf16_lines li) with
  | Some cs => utf8_to_utf16_loop cs col col
  | None => Ok col
  end.

(** :148-162 [utf16_to_utf8_col]; u32 arithmetic, [col] is updated in place
    and compared in its updated form. *)
Fixpoint utf16_to_utf8_loop (cs : list utf16char) (col : N) : res N :=
  match cs with
  | [] => Ok col
  | c :: cs' =>
      if uc_start c <? col then
        let! d := u32_sub (uc_len c) (uc_len_utf16 c) in
        let! col' := u32_add col d in
        utf16_to_utf8_loop cs' col'
      else Ok col
  end.
Definition utf16_to_utf8_col (li : line_index) (line col : N) : res N :=
  match alookup N.eqb line (utf16_lines li) with
  | Some cs => utf16_to_utf8_loop cs col
  | None => Ok col
  end.

(** :109-112 [to_utf16], :114-117 [to_utf8] *)
Definition li_to_utf16 (li : line_index) (p : line_col) : res line_col :=
  let! c := utf8_to_utf16_col li (lc_line p) (lc_col p) in
  Ok {| lc_line := lc_line p; lc_col := c |}.
Definition li_to_utf8 (li : line_index) (p : line_col) : res line_col :=
  let! c := utf16_to_utf8_col li (lc_line p) (lc_col p) in
  Ok {| lc_line := lc_line p; lc_col := c |}.

(** Pairs of neighbours: [all.clone().zip(all.skip(1))]. *)
Fixpoint neighbours {A} (l : list A) : list (A * A) :=
  match l with
  | x :: ((y :: _) as r) => (x, y) :: neighbours r
  | _ => []
  end.

(** :119-130 [LineIndex::lines]; a range is a pair, [TextRange::new] asserts
    start <= end for each produced pair, and [newlines[lo..hi]] panics when
    [lo > hi]. *)
Definition li_lines (li : line_index) (s e : N) : res (list (N * N)) :=
  let lo := partition_point (fun it => it <? s) (newlines li) in
  let hi := partition_point (fun it => it <=? e) (newlines li) in
  if (lo <=? hi)%nat then
    let mid := firstn (hi - lo) (skipn lo (newlines li)) in
    let pairs := neighbours (s :: mid ++ [e]) in
    if forallb (fun p => fst p <=? snd p) pairs
    then Ok (filter (fun p => negb (fst p =? snd p)) pairs)
    else Panic PAssert
  else Panic PSlice.

(** ** move_language_server conversions *)

(** move_language_server/src/line_index.rs:10-13 *)
Inductive encoding := Utf8 | Utf16.

(** lsp_types::Position, lsp_types::Range *)
Record position := { p_line : N; p_char : N }.
Record lrange := { r_start : position; r_end : position }.

(** move_language_server/src/from_proto.rs:26-38 [offset] *)
Definition fp_offset (enc : encoding) (li : line_index) (p : position) : res N :=
  let! lc := match enc with
             | Utf8 => Ok {| lc_line := p_line p; lc_col := p_char p |}
             | Utf16 => li_to_utf8 li {| lc_line := p_line p; lc_col := p_char p |}
             end in
  li_offset li lc.

(** from_proto.rs:40-44 [text_range]; TextRange::new asserts start <= end. *)
Definition fp_text_range (enc : encoding) (li : line_index) (r : lrange) : res (N * N) :=
  let! s := fp_offset enc li (r_start r) in
  let! e := fp_offset enc li (r_end r) in
  if s <=? e then Ok (s, e) else Panic PAssert.

(** to_proto.rs:19-28 [position] *)
Definition tp_position (enc : encoding) (li : line_index) (o : N) : res position :=
  let! lc := li_line_col li o in
  match enc with
  | Utf8 => Ok {| p_line := lc_line lc; p_char := lc_col lc |}
  | Utf16 =>
      let! lc' := li_to_utf16 li lc in
      Ok {| p_line := lc_line lc'; p_char := lc_col lc' |}
  end.

(** to_proto.rs:30-34 [range] *)
Definition tp_range (enc : encoding) (li : line_index) (s e : N) : res lrange :=
  let! a := tp_position enc li s in
  let! b := tp_position enc li e in
  Ok {| r_start := a; r_end := b |}.
