(** Model of crates/syntax/src/lib.rs:85-93 [Parse::debug_dump], the text the
    snapshot tests compare, with the printing it calls: rowan 0.13.2's
    [Debug for SyntaxNode] and [Debug for SyntaxToken], the standard library's
    [Debug for str], and decimal numbers. *)
From Coq Require Import String.
From Verif Require Import Base Kinds Sink.
Local Open Scope N_scope.

(** core::fmt::num: unsigned numbers in decimal *)
Fixpoint dec_text (u : Decimal.uint) : text :=
  match u with
  | Decimal.Nil => []
  | Decimal.D0 r => 48 :: dec_text r | Decimal.D1 r => 49 :: dec_text r | Decimal.D2 r => 50 :: dec_text r
  | Decimal.D3 r => 51 :: dec_text r | Decimal.D4 r => 52 :: dec_text r | Decimal.D5 r => 53 :: dec_text r
  | Decimal.D6 r => 54 :: dec_text r | Decimal.D7 r => 55 :: dec_text r | Decimal.D8 r => 56 :: dec_text r
  | Decimal.D9 r => 57 :: dec_text r
  end.
Definition decimal (n : N) : text := dec_text (N.to_uint n).
(** core::char::EscapeUnicode: the number in lower-case hexadecimal *)
Fixpoint hex_text (u : Hexadecimal.uint) : text :=
  match u with
  | Hexadecimal.Nil => []
  | Hexadecimal.D0 r => 48 :: hex_text r | Hexadecimal.D1 r => 49 :: hex_text r | Hexadecimal.D2 r => 50 :: hex_text r
  | Hexadecimal.D3 r => 51 :: hex_text r | Hexadecimal.D4 r => 52 :: hex_text r | Hexadecimal.D5 r => 53 :: hex_text r
  | Hexadecimal.D6 r => 54 :: hex_text r | Hexadecimal.D7 r => 55 :: hex_text r | Hexadecimal.D8 r => 56 :: hex_text r
  | Hexadecimal.D9 r => 57 :: hex_text r | Hexadecimal.Da r => 97 :: hex_text r | Hexadecimal.Db r => 98 :: hex_text r
  | Hexadecimal.Dc r => 99 :: hex_text r | Hexadecimal.Dd r => 100 :: hex_text r | Hexadecimal.De r => 101 :: hex_text r
  | Hexadecimal.Df r => 102 :: hex_text r
  end.
Definition hexadecimal_of (n : N) : text := hex_text (N.to_hex_uint n).

(** core::fmt::Debug for str, char::escape_debug_ext.  [plain] is the table of
    characters that are printed as they are (printable and not continuing a
    grapheme); every statement holds for all tables. *)
Definition short_escape (c : N) : option N :=
  if c =? 0 then Some 48 else if c =? 9 then Some 116 else if c =? 13 then Some 114
  else if c =? 10 then Some 110 else if c =? 34 then Some 34 else if c =? 92 then Some 92 else None.
Definition escape (plain : N -> bool) (c : N) : text :=
  match short_escape c with
  | Some l => [92; l]
  | None => if plain c then [c] else `"\u{" ++ hexadecimal_of c ++ `"}"
  end.
Definition debug_str (plain : N -> bool) (t : text) : text := [34] ++ flat_map (escape plain) t ++ [34].

(** rowan [Debug for SyntaxToken]: a token of 25 bytes and more is cut at the
    first boundary of a character from byte 21 on *)
Fixpoint cut_at (t : text) (indices : list N) : res text :=
  match indices with
  | [] => Panic PUnreachable
  | i :: r => match split_at t i with Some (a, _) => Ok (a ++ `" ...") | None => cut_at t r end
  end.
Definition token_text (t : text) : res text := if tlen t <? 25 then Ok t else cut_at t [21; 22; 23; 24].

(** rowan: a node or token on the way of [preorder_with_tokens]: its level, its
    kind, its range and the text of a token *)
Record entry := Entry { en_level : nat; en_kind : kind; en_start : N; en_end : N; en_text : option text }.
(** rowan [text_len] *)
Fixpoint glen (g : green) : N :=
  match g with GTok _ t => tlen t | GNode _ cs => fold_right (fun c n => glen c + n) 0 cs end.
Fixpoint entries (level : nat) (pos : N) (g : green) : list entry :=
  match g with
  | GTok k t => [Entry level k pos (pos + tlen t) (Some t)]
  | GNode k cs =>
      Entry level k pos (pos + glen g) None ::
      (fix go (pos : N) (cs : list green) : list entry :=
         match cs with [] => [] | c :: r => entries (S level) pos c ++ go (pos + glen c) r end) pos cs
  end.

(** text-size [Debug for TextRange] *)
Definition range_text (a b : N) : text := decimal a ++ `".." ++ decimal b.
(** rowan [Debug for SyntaxNode] with {:#?}, one line: two blanks for each
    level, then [Debug for SyntaxNode] or [Debug for SyntaxToken] with {:?} *)
Definition entry_line (plain : N -> bool) (e : entry) : res text :=
  let head := repeat 32 (2 * en_level e) ++ kind_name (en_kind e) ++ `"@" ++ range_text (en_start e) (en_end e) in
  match en_text e with
  | None => Ok head
  | Some t => let! s := token_text t in Ok (head ++ `" " ++ debug_str plain s)
  end.
Fixpoint tree_lines (plain : N -> bool) (es : list entry) : res (list text) :=
  match es with
  | [] => Ok []
  | e :: r => let! l := entry_line plain e in let! ls := tree_lines plain r in Ok (l :: ls)
  end.
(** lib.rs:88-90; syntax_error.rs:25-31, 40-44: the range of an error is empty *)
Definition error_line (e : syntax_error) : text :=
  `"error " ++ range_text (se_pos e) (se_pos e) ++ `": " ++ se_msg e.
Definition unlines (ls : list text) : text := flat_map (fun l => l ++ [cLF]) ls.
(** lib.rs:86-92 [debug_dump] *)
Definition debug_dump (plain : N -> bool) (g : green) (errs : list syntax_error) : res text :=
  let! ls := tree_lines plain (entries 0 0 g) in
  Ok (unlines (ls ++ map error_line errs)).
(** [SourceFile::parse(text).debug_dump()], as in crates/syntax/src/tests.rs:10-21 *)
Definition file_dump (plain : N -> bool) (t : text) : res text :=
  let! (g, errs) := source_file_parse t in debug_dump plain g errs.
