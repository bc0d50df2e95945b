(** Specification of diagnostics: what a client should be shown for a text. *)
From Coq Require Import String.
From Verif Require Import Base TextSpec LineIndex Sink Diagnostics.
Local Open Scope N_scope.

(** the position just after [before], in an encoding *)
Definition pos_in (enc : encoding) (before : text) : position :=
  {| p_line := count_lf before;
     p_char := match enc with Utf8 => tlen (last_line before) | Utf16 => tlen16 (last_line before) end |}.

(** [d] shows the syntax error [e] of the text [t], with positions in [enc]. *)
Definition diagnostic_of (enc : encoding) (t : text) (e : syntax_error) (d : lsp_diag) : Prop :=
  exists before after, t = before ++ after /\ tlen before = se_pos e /\
    d = {| d_range := {| r_start := pos_in enc before; r_end := pos_in enc before |};
           d_severity := Some Error; d_code := `"syntax-error"; d_source := Some (`"move-language-server");
           d_message := `"Syntax Error: " ++ se_msg e; d_unused := false |}.

(** The diagnostics of a text: one for each of the first 128 syntax errors. *)
Definition diagnoses (enc : encoding) (t : text) (ds : list lsp_diag) : Prop :=
  exists g errs, source_file_parse t = Ok (g, errs) /\
    Forall2 (diagnostic_of enc t) (firstn 128 errs) ds.

(** The client's offset encodings, lsp_ext.rs:455-457 and config.rs:73-79:
    [None] when the client did not send the capability. *)
Definition negotiated (offset_encodings : option (list text)) : encoding :=
  match offset_encodings with
  | Some l => if existsb (text_eqb (`"utf-8")) l then Utf8 else Utf16
  | None => Utf16
  end.

(** ** The diagnostics collection, as a client of it sees it *)
(** Two diagnostics that differ at most in code, description and tags. *)
Definition similar (a b : lsp_diag) : Prop :=
  d_source a = d_source b /\ d_severity a = d_severity b /\ d_range a = d_range b /\ d_message a = d_message b.
Inductive update :=
| UNative (id : N) (ds : list lsp_diag)              (* all diagnostics of the server for a file *)
| UCheck (id : N) (d : lsp_diag) (fixes : list N)    (* one more diagnostic of an external check *)
| UClear.                                            (* forget those of the check *)
Definition apply_update (c : collection) (u : update) : collection :=
  match u with
  | UNative id ds => set_native_diagnostics c id ds
  | UCheck id d fixes => add_check_diagnostic c id d fixes
  | UClear => clear_check c
  end.
(** The updates of one loop turn, then the changed files are published: the
    client replaces what it shows for each of them.  The list is what was
    published. *)
Definition round (st : collection * (N -> list lsp_diag)) (batch : list update) : collection * (N -> list lsp_diag) * list N :=
  let '(c, changed) := take_changes (fold_left apply_update batch (fst st)) in
  let published := match changed with Some ids => ids | None => [] end in
  (c, (fun id => if existsb (N.eqb id) published then diagnostics_for c id else snd st id), published).
Fixpoint rounds (st : collection * (N -> list lsp_diag)) (batches : list (list update)) : collection * (N -> list lsp_diag) :=
  match batches with
  | [] => st
  | b :: rest => rounds (fst (round st b)) rest
  end.
Definition shows_nothing : collection * (N -> list lsp_diag) := (collection_default, fun _ => []).

(** What ought to be shown after a history of updates. *)
Definition last_native (id : N) (us : list update) : list lsp_diag :=
  fold_left (fun acc u => match u with UNative i ds => if i =? id then ds else acc | _ => acc end) us [].
Definition checks_since_clear (id : N) (us : list update) : list (lsp_diag * list N) :=
  fold_left (fun acc u => match u with
                          | UClear => []
                          | UCheck i d fx => if i =? id then acc ++ [(d, fx)] else acc
                          | UNative _ _ => acc
                          end) us [].
(** the first of each group of similar ones ([are_diagnostics_equal] decides
    [similar]) *)
Fixpoint first_ones (seen : list lsp_diag) (l : list (lsp_diag * list N)) : list (lsp_diag * list N) :=
  match l with
  | [] => []
  | (d, fx) :: rest =>
      if existsb (fun e => are_diagnostics_equal e d) seen then first_ones seen rest
      else (d, fx) :: first_ones (seen ++ [d]) rest
  end.
