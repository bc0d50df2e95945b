(** Specification of document edits, independent of any line index. *)
From Verif Require Import Base TextSpec LineIndex DocChanges.
Local Open Scope N_scope.

(** The LSP position (UTF-16) of the point just after [before]. *)
Definition lsp_pos (before : text) : position :=
  {| p_line := count_lf before; p_char := tlen16 (last_line before) |}.

(** One content change sent by a client whose document is [t]. *)
Inductive client_edit : text -> change -> text -> Prop :=
| edit_range before old after new :
    client_edit (before ++ old ++ after)
      {| ch_range := Some {| r_start := lsp_pos before; r_end := lsp_pos (before ++ old) |};
         ch_text := new |}
      (before ++ new ++ after)
| edit_full t new :
    client_edit t {| ch_range := None; ch_text := new |} new.

(** A batch, each change relative to the document left by the previous one. *)
Inductive client_edits : text -> list change -> text -> Prop :=
| edits_nil t : client_edits t [] t
| edits_cons t ch t1 chs t2 :
    client_edit t ch t1 -> client_edits t1 chs t2 -> client_edits t (ch :: chs) t2.

(** Reference semantics for arbitrary (also ill-positioned) changes: a fresh
    index for every change. *)
Definition apply_fresh (t : text) (ch : change) : res text :=
  match ch_range ch with
  | Some range =>
      let! (s, e) := fp_text_range Utf16 (li_build t) range in
      replace_range t s e (ch_text ch)
  | None => Ok (ch_text ch)
  end.
Fixpoint apply_all_fresh (t : text) (chs : list change) : res text :=
  match chs with
  | [] => Ok t
  | ch :: rest => let! t' := apply_fresh t ch in apply_all_fresh t' rest
  end.

(** Bytes in a document plus everything a batch inserts. *)
Fixpoint batch_size (t : text) (chs : list change) : N :=
  match chs with [] => tlen t | ch :: r => tlen (ch_text ch) + batch_size t r end.

Definition ordered_lines (ch : change) : Prop :=
  match ch_range ch with
  | Some r => p_line (r_start r) <= p_line (r_end r)
  | None => True
  end.

(** Two ranges do not overlap: one ends where or before the other starts. *)
Definition disjoint (a b : lrange) : Prop :=
  pos_leb (r_end a) (r_start b) = true \/ pos_leb (r_end b) (r_start a) = true.
Definition well_formed (r : lrange) : Prop := pos_leb (r_start r) (r_end r) = true.
(** No two list entries overlap. *)
Fixpoint pairwise_disjoint (l : list lrange) : Prop :=
  match l with [] => True | a :: r => (forall b, In b r -> disjoint a b) /\ pairwise_disjoint r end.
