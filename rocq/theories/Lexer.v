(** Model of crates/parser/src/lexer.rs *)
From Coq Require Import String.
From Verif Require Import Base Kinds.
Local Open Scope N_scope.

(** lexer.rs:7-18 [Token] and [Token::new] ([len as u32] truncates) *)
Record token := Tok { t_kind : kind; t_len : N }.
Definition token_new (k : kind) (len : N) : token := Tok k (len mod u32_bound).

(** Character classes of the patterns in lexer.rs *)
Definition in_range (lo hi c : char) : bool := (lo <=? c) && (c <=? hi).
Definition is_digit (c : char) : bool := in_range 48 57 c.
Definition is_hex_digit (c : char) : bool := in_range 97 102 c || in_range 65 70 c || is_digit c.
Definition is_name_start (c : char) : bool := in_range 65 90 c || in_range 97 122 c || (c =? 95).
Definition is_name_char (c : char) : bool := is_name_start c || is_digit c.
Definition is_space (c : char) : bool := (c =? 32) || (c =? 10) || (c =? 9).

(** core: [str::chars().position(p)] counts characters, [str::find(p)] and
    [char_indices().find] count bytes. *)
Fixpoint position (p : char -> bool) (t : text) : option N :=
  match t with
  | [] => None
  | c :: r => if p c then Some 0 else option_map N.succ (position p r)
  end.
Fixpoint find_byte (p : char -> bool) (t : text) : option N :=
  match t with
  | [] => None
  | c :: r => if p c then Some 0 else option_map (N.add (utf8_len c)) (find_byte p r)
  end.
Definition unwrap_or (o : option N) (d : N) : N := match o with Some x => x | None => d end.

(** core: first item of [str::lines()], for a non-empty text *)
Fixpoint until_lf (t : text) : text :=
  match t with
  | [] => []
  | c :: r => if c =? cLF then [] else c :: until_lf r
  end.
Definition first_line (t : text) : text :=
  let l := until_lf t in
  match rev l with
  | c :: r => if c =? cCR then rev r else l
  | [] => l
  end.

(** core: [char::is_whitespace] (Unicode White_Space) and [str::trim_start] *)
Definition is_white_space (c : char) : bool :=
  in_range 9 13 c || (c =? 32) || (c =? 0x85) || (c =? 0xA0) || (c =? 0x1680)
  || in_range 0x2000 0x200A c || (c =? 0x2028) || (c =? 0x2029) || (c =? 0x202F)
  || (c =? 0x205F) || (c =? 0x3000).
Fixpoint trim_start (t : text) : text :=
  match t with
  | [] => []
  | c :: r => if is_white_space c then trim_start r else t
  end.

(** lexer.rs:327-331 [get_name_len] *)
Definition get_name_len (t : text) : N :=
  unwrap_or (position (fun c => negb (is_name_char c)) t) (tlen t).

(** lexer.rs:349-361 [get_number_maybe_with_suffix] *)
Definition get_number_maybe_with_suffix (t : text) (num_text_len : N) : res (kind * N) :=
  let! rest := slice_from t num_text_len in
  if starts_with rest (`"u8") then Ok (INTEGER_NUMBER, num_text_len + 2)
  else if starts_with rest (`"u64") then Ok (INTEGER_NUMBER, num_text_len + 3)
  else if starts_with rest (`"u128") then Ok (INTEGER_NUMBER, num_text_len + 4)
  else Ok (INTEGER_NUMBER, num_text_len).

(** lexer.rs:333-337 [get_decimal_number] *)
Definition get_decimal_number (t : text) : res (kind * N) :=
  get_number_maybe_with_suffix t
    (unwrap_or (position (fun c => negb (is_digit c)) t) (tlen t)).

(** lexer.rs:340-345 [get_hex_number] *)
Definition get_hex_number (t : text) : res (kind * N) :=
  get_number_maybe_with_suffix t
    (unwrap_or (find_byte (fun c => negb (is_hex_digit c)) t) (tlen t)).

(** lexer.rs:364-379 [get_string_len]; the position counts characters.
    [pos] is the value of the local variable at the head of the loop. *)
Fixpoint get_string_len (pos : N) (t : text) : option N :=
  match t with
  | [] => None
  | c :: r =>
      if c =? 92 then
        match r with
        | _ :: r' => get_string_len (pos + 2) r'
        | [] => None
        end
      else if c =? 34 then Some pos
      else get_string_len (pos + 1) r
  end.

(** lexer.rs:167-180: the whitespace loop, from [num_space_chars] on *)
Fixpoint space_run (t : text) : N :=
  match t with
  | [] => 0
  | c :: r => if is_space c then 1 + space_run r else 0
  end.

(** lexer.rs:159-321 [find_token] *)
Definition find_token (t : text) : res (kind * N) :=
  match t with
  | [] => Ok (EOF, 0)
  | c :: r =>
      if is_space c then Ok (WHITESPACE, 1 + space_run r)
      else if (c =? 47) && starts_with t (`"//") then
        match find_byte (fun ch => ch =? 10) t with
        | Some pos => Ok (COMMENT, pos + 1)
        | None => Ok (COMMENT, tlen t)
        end
      else if is_digit c then
        if starts_with t (`"0x") && (2 <? tlen t) then
          let! t2 := slice_from t 2 in
          let! (tok, hex_len) := get_hex_number t2 in
          if hex_len =? 0 then Ok (INTEGER_NUMBER, 1) else Ok (tok, 2 + hex_len)
        else get_decimal_number t
      else if is_name_start c then
        if starts_with t [120; 34] || starts_with t [98; 34] then
          let! line := slice_from (first_line t) 2 in
          match get_string_len 0 line with
          | Some last_quote => Ok (BYTE_STRING, 2 + last_quote + 1)
          | None => Panic PTodo
          end
        else
          let len := get_name_len t in
          let! name := slice_to t len in
          Ok (match from_keyword name with Some k => k | None => IDENT end, len)
      else if c =? 38 then
        if starts_with t (`"&mut") then Ok (AMP_MUT, 4)
        else if starts_with t (`"&&") then Ok (AMP_AMP, 2) else Ok (AMP, 1)
      else if c =? 124 then
        if starts_with t (`"||") then Ok (PIPE_PIPE, 2) else Ok (PIPE, 1)
      else if c =? 61 then
        if starts_with t (`"==>") then Ok (EQ_EQ_GT, 3)
        else if starts_with t (`"==") then Ok (EQ_EQ, 2) else Ok (EQ, 1)
      else if c =? 33 then
        if starts_with t (`"!=") then Ok (BANG_EQ, 2) else Ok (BANG, 1)
      else if c =? 60 then
        if starts_with t (`"<==>") then Ok (LT_EQ_EQ_GT, 4)
        else if starts_with t (`"<=") then Ok (LT_EQ, 2)
        else if starts_with t (`"<<") then Ok (LT_LT, 2) else Ok (LT, 1)
      else if c =? 62 then
        if starts_with t (`">=") then Ok (GT_EQ, 2)
        else if starts_with t (`">>") then Ok (GT_GT, 2) else Ok (GT, 1)
      else if c =? 58 then
        if starts_with t (`"::") then Ok (COLON_COLON, 2) else Ok (COLON, 1)
      else if c =? 37 then Ok (MOD, 1)
      else if c =? 40 then Ok (L_PAREN, 1)
      else if c =? 41 then Ok (R_PAREN, 1)
      else if c =? 91 then Ok (L_BRACK, 1)
      else if c =? 93 then Ok (R_BRACK, 1)
      else if c =? 42 then Ok (STAR, 1)
      else if c =? 43 then Ok (PLUS, 1)
      else if c =? 44 then Ok (COMMA, 1)
      else if c =? 45 then Ok (MINUS, 1)
      else if c =? 46 then
        if starts_with t (`"..") then Ok (DOTDOT, 2) else Ok (DOT, 1)
      else if c =? 47 then Ok (SLASH, 1)
      else if c =? 59 then Ok (SEMICOLON, 1)
      else if c =? 94 then Ok (CARET, 1)
      else if c =? 123 then Ok (L_BRACE, 1)
      else if c =? 125 then Ok (R_BRACE, 1)
      else if c =? 35 then Ok (NUMSIGN, 1)
      else if c =? 64 then Ok (ATSIGN, 1)
      else Panic PTodo
  end.

(** lexer.rs:20-27 [Lexer] *)
Record lexer := Lexer {
  lx_text : text;
  lx_prev_end : N;
  lx_cur_start : N;
  lx_cur_end : N;
  lx_token : token;
  lx_all : list token
}.

(** lexer.rs:44-50 [Lexer::new] *)
Definition lexer_new (t : text) : res lexer :=
  let! (k, len) := find_token t in
  let tok := token_new k len in
  Ok (Lexer t 0 0 len tok [tok]).

(** lexer.rs:52-54 [current] *)
Definition lx_current (lx : lexer) : token := lx_token lx.

(** lexer.rs:80-82 [current_text] *)
Definition lx_current_text (lx : lexer) : res text :=
  let! t := slice_to (lx_text lx) (lx_cur_end lx) in
  slice_from t (lx_cur_start lx).

(** lexer.rs:94-99 [lookahead] *)
Definition lx_lookahead (lx : lexer) : res token :=
  let! t := slice_from (lx_text lx) (lx_cur_end lx) in
  let! (k, len) := find_token (trim_start t) in
  Ok (token_new k len).

(** lexer.rs:103-114 [lookahead_2] *)
Definition lx_lookahead_2 (lx : lexer) : res (token * token) :=
  let! t := slice_from (lx_text lx) (lx_cur_end lx) in
  let offset := tlen (lx_text lx) - tlen t in
  let! (k1, len1) := find_token t in
  let! t2 := slice_from (lx_text lx) (offset + len1) in
  let! (k2, len2) := find_token t2 in
  Ok (token_new k1 len1, token_new k2 len2).

(** lexer.rs:30-40 [lookahead_nth] *)
Definition lx_lookahead_nth (lx : lexer) (n : nat) : res token :=
  match n with
  | 0%nat => Ok (lx_current lx)
  | 1%nat => lx_lookahead lx
  | 2%nat => let! p := lx_lookahead_2 lx in Ok (snd p)
  | _ => Panic PTodo
  end.

(** lexer.rs:134-139 [advance_with_token] *)
Definition lx_advance (lx : lexer) (k : kind) (len : N) : lexer :=
  let tok := token_new k len in
  Lexer (lx_text lx) (lx_prev_end lx) (lx_cur_start lx) (lx_cur_start lx + len) tok
        (lx_all lx ++ [tok]).

(** lexer.rs:116-132 [bump]; the recursion through trivia is bounded by the
    number of characters (LexerProofs.v shows the bound is never hit) *)
Fixpoint lx_bump_fuel (fuel : nat) (lx : lexer) : res lexer :=
  match fuel with
  | O => Fuel
  | S fuel' =>
      let! t := slice_from (lx_text lx) (lx_cur_end lx) in
      let lx1 := Lexer (lx_text lx) (lx_cur_end lx) (tlen (lx_text lx) - tlen t)
                       (lx_cur_end lx) (lx_token lx) (lx_all lx) in
      let! (k, len) := find_token t in
      if is_trivia k then lx_bump_fuel fuel' (lx_advance lx1 k len)
      else Ok (lx_advance lx1 k len)
  end.
Definition lx_bump (lx : lexer) : res lexer :=
  lx_bump_fuel (S (length (lx_text lx))) lx.
