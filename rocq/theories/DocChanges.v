(** Model of apply_document_changes and all_edits_are_disjoint,
    crates/move_language_server/src/lsp_utils.rs:51-134. *)
From Verif Require Import Base LineIndex.
Local Open Scope N_scope.

(** lsp_types::TextDocumentContentChangeEvent (the deprecated rangeLength is
    never read). *)
Record change := { ch_range : option lrange; ch_text : text }.

(** String::replace_range: both ends must be char boundaries within the text
    and start <= end. *)
Definition replace_range (t : text) (s e : N) (new : text) : res text :=
  match split_at t s, split_at t e with
  | Some (before, _), Some (_, after) => if s <=? e then Ok (before ++ new ++ after) else Panic PSlice
  | _, _ => Panic PSlice
  end.

(** lsp_utils.rs:67-79 [IndexValid] *)
Inductive index_valid := All | UpToLineExclusive (to : N).
Definition covers (v : index_valid) (line : N) : bool :=
  match v with UpToLineExclusive to => line <? to | All => true end.

(** lsp_utils.rs:82-97, one iteration; state = (text, line index, validity). *)
Definition change_step (st : text * line_index * index_valid) (ch : change)
  : res (text * line_index * index_valid) :=
  let '(old_text, li, valid) := st in
  match ch_range ch with
  | Some range =>
      let! li' := if negb (covers valid (p_line (r_end range))) then li_new old_text else Ok li in
      let valid' := UpToLineExclusive (p_line (r_start range)) in
      let! (s, e) := fp_text_range Utf16 li' range in
      let! t' := replace_range old_text s e (ch_text ch) in
      Ok (t', li', valid')
  | None => Ok (ch_text ch, li, UpToLineExclusive 0)
  end.

Fixpoint changes_loop (st : text * line_index * index_valid) (chs : list change) : res text :=
  match chs with
  | [] => Ok (fst (fst st))
  | ch :: rest => let! st' := change_step st ch in changes_loop st' rest
  end.

(** lsp_utils.rs:51-98 [apply_document_changes] *)
Definition apply_document_changes (old_text : text) (chs : list change) : res text :=
  let! li := li_new old_text in
  changes_loop (old_text, li, All) chs.

(** ** all_edits_are_disjoint (lsp_utils.rs:102-134) *)

(** lsp_types::Position has a derived lexicographic Ord. *)
Definition pos_cmp (a b : position) : comparison :=
  match p_line a ?= p_line b with Eq => p_char a ?= p_char b | c => c end.
Definition pos_leb (a b : position) : bool :=
  match pos_cmp a b with Gt => false | _ => true end.
Definition pos_eqb (a b : position) : bool :=
  (p_line a =? p_line b) && (p_char a =? p_char b).

(** lsp_types::CompletionTextEdit, ranges only. *)
Inductive completion_edit :=
| CEdit (r : lrange)
| CInsertReplace (insert replace : lrange).

(** The part of lsp_types::CompletionItem that is read. *)
Record completion := {
  c_text_edit : option completion_edit;
  c_additional : option (list lrange)
}.

(** sort_by_key (stable) with key (start, end); insertion sort gives the same
    result as any stable sort. *)
Definition range_leb (a b : lrange) : bool :=
  match pos_cmp (r_start a) (r_start b) with
  | Lt => true | Gt => false
  | Eq => pos_leb (r_end a) (r_end b)
  end.
Fixpoint insert_sorted (r : lrange) (l : list lrange) : list lrange :=
  match l with
  | [] => [r]
  | x :: l' => if range_leb r x then r :: l else x :: insert_sorted r l'
  end.
Fixpoint sort_ranges (l : list lrange) : list lrange :=
  match l with [] => [] | x :: r => insert_sorted x (sort_ranges r) end.

(** lsp_utils.rs:130-133, neighbours only *)
Fixpoint adjacent_ok (l : list lrange) : bool :=
  match l with
  | a :: ((b :: _) as r) => pos_leb (r_end a) (r_start b) && adjacent_ok r
  | _ => true
  end.

Definition all_edits_are_disjoint (c : completion) (additional : list lrange) : bool :=
  let rest := (match c_additional c with Some l => l | None => [] end) ++ additional in
  match c_text_edit c with
  | Some (CEdit r) => adjacent_ok (sort_ranges (r :: rest))
  | Some (CInsertReplace insert replace) =>
      if negb (pos_eqb (r_start replace) (r_start insert))
         || negb (pos_leb (r_start insert) (r_end insert))
         || negb (pos_leb (r_end insert) (r_end replace))
      then false
      else adjacent_ok (sort_ranges (replace :: rest))
  | None => adjacent_ok (sort_ranges rest)
  end.
