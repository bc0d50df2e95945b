(** How the editor extension reads what the program dove prints:
    editors/code/src/components/dove.ts.  The program is what arrives from its two
    pipes; in which pieces, and which pipe first, is up to the system. *)
From Coq Require Import String.
From Verif Require Import Base Utf8 ChildOutput.
Local Open Scope N_scope.

(** a [data] event of [process.stdout] or of [process.stderr] *)
Inductive piece := OutPiece (data : bytes) | ErrPiece (data : bytes).
(** Node: adding a Buffer to a string decodes it as UTF-8, on its own; invalid
    sequences are replaced as by String::from_utf8_lossy.  A string is taken as its
    code points: no decoding gives half of a surrogate pair. *)
Definition add_data (s : text) (data : bytes) : text := s ++ lossy data.
(** dove.ts:106-111, the two listeners *)
Definition on_piece (acc : text * text) (p : piece) : text * text :=
  let (out, err) := acc in
  match p with OutPiece d => (add_data out d, err) | ErrPiece d => (out, add_data err d) end.
(** dove.ts:95-123 [runCommand]: the pieces that arrive before [close]; the exit
    code is not looked at *)
Definition run_command (ps : list piece) : text * text := fold_left on_piece ps ([], []).

(** ECMAScript: String.prototype.trim *)
Definition js_blank (c : char) : bool :=
  between 9 13 c || (c =? 32) || (c =? 0xA0) || (c =? 0x1680) || between 0x2000 0x200A c || (c =? 0x2028) || (c =? 0x2029) || (c =? 0x202F)
  || (c =? 0x205F) || (c =? 0x3000) || (c =? 0xFEFF).
Fixpoint js_trim_start (t : text) : text := match t with [] => [] | c :: r => if js_blank c then js_trim_start r else t end.
Definition js_trim (t : text) : text := rev (js_trim_start (rev (js_trim_start t))).

Section Metadata.
  (** JSON.parse; [None] if it throws *)
  Context {M : Type} (parse : text -> option M).
  Inductive answer := Nothing (errors : text) | Parsed (m : M) (errors : text) | Rejected.
  (** dove.ts:67-78 [metadata] *)
  Definition metadata (ps : list piece) : answer :=
    let (json, errors) := run_command ps in
    match json with
    | [] => Nothing errors
    | _ => match parse (js_trim json) with Some m => Parsed m errors | None => Rejected end
    end.
  (** dove.ts:80-89 [metadataWithErrorMessage]: what it returns, and the message
      shown; [None] if it throws *)
  Definition metadata_with_error_message (ps : list piece) : option (option M * list text) :=
    match metadata ps with
    | Nothing errors => Some (None, [`"Dove.toml is invalid: " ++ errors])
    | Parsed m _ => Some (Some m, [])
    | Rejected => None
    end.
End Metadata.
Arguments Nothing {M}. Arguments Parsed {M}. Arguments Rejected {M}.
