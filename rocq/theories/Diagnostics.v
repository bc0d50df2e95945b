(** Model of crates/move_language_server/src/diagnostics.rs
    (DiagnosticCollection), handlers.rs (publish_diagnostics) and
    crates/ide_diagnostics/src/lib.rs. *)
From Coq Require Import String.
From Verif Require Import Base LineIndex LineEndings Sink Database.
Local Open Scope N_scope.

(** to_proto.rs:36-41 / lsp_types::DiagnosticSeverity *)
Inductive severity := Error | Hint.
Definition severity_eqb (a b : severity) : bool := match a, b with Error, Error => true | Hint, Hint => true | _, _ => false end.
(** lsp_types::Diagnostic, the fields handlers.rs:17-32 fills in.
    Simplification: [code_description] is a function of the code. *)
Record lsp_diag := {
  d_range : lrange;
  d_severity : option severity;
  d_code : text;
  d_source : option text;
  d_message : text;
  d_unused : bool
}.
Definition pos_eq (a b : position) : bool := (p_line a =? p_line b) && (p_char a =? p_char b).
Definition range_eq (a b : lrange) : bool := pos_eq (r_start a) (r_start b) && pos_eq (r_end a) (r_end b).
Definition opt_eqb {A} (e : A -> A -> bool) (a b : option A) : bool :=
  match a, b with Some x, Some y => e x y | None, None => true | _, _ => false end.
(** diagnostics.rs:98-103 [are_diagnostics_equal] *)
Definition are_diagnostics_equal (l r : lsp_diag) : bool :=
  opt_eqb text_eqb (d_source l) (d_source r) && opt_eqb severity_eqb (d_severity l) (d_severity r) &&
  range_eq (d_range l) (d_range r) && text_eqb (d_message l) (d_message r).

(** diagnostics.rs:17-31 [DiagnosticCollection] and [Fix]; an action is an
    opaque value.  A hash set is its elements in insertion order. *)
Record fix_ := { fx_range : lrange; fx_action : N }.
Record collection := {
  dc_native : list (N * list lsp_diag);
  dc_check : list (N * list lsp_diag);
  dc_fixes : list (N * list fix_);
  dc_changes : list N
}.
Definition collection_default : collection := {| dc_native := []; dc_check := []; dc_fixes := []; dc_changes := [] |}.

(** FxHashSet::insert *)
Definition set_insert (x : N) (s : list N) : list N := if existsb (N.eqb x) s then s else s ++ [x].
Definition entry (m : list (N * list lsp_diag)) (id : N) : list lsp_diag :=
  match alookup N.eqb id m with Some l => l | None => [] end.

(** diagnostics.rs:34-37 [clear_check] *)
Definition clear_check (c : collection) : collection :=
  {| dc_native := dc_native c; dc_check := []; dc_fixes := [];
     dc_changes := fold_left (fun s k => set_insert k s) (map fst (dc_check c)) (dc_changes c) |}.
(** diagnostics.rs:39-59 [add_check_diagnostic] *)
Definition add_check_diagnostic (c : collection) (id : N) (d : lsp_diag) (actions : list N) : collection :=
  let ds := entry (dc_check c) id in
  if existsb (fun e => are_diagnostics_equal e d) ds then
    {| dc_native := dc_native c; dc_check := ainsert N.eqb id ds (dc_check c);
       dc_fixes := dc_fixes c; dc_changes := dc_changes c |}
  else
    {| dc_native := dc_native c;
       dc_check := ainsert N.eqb id (ds ++ [d]) (dc_check c);
       dc_fixes := ainsert N.eqb id
         ((match alookup N.eqb id (dc_fixes c) with Some l => l | None => [] end)
           ++ map (fun a => {| fx_range := d_range d; fx_action := a |}) actions) (dc_fixes c);
       dc_changes := set_insert id (dc_changes c) |}.
(** [zip] then [all] *)
Fixpoint zip_all {A B} (f : A -> B -> bool) (l : list A) (m : list B) : bool :=
  match l, m with x :: l, y :: m => f x y && zip_all f l m | _, _ => true end.
(** diagnostics.rs:61-79 [set_native_diagnostics] *)
Definition set_native_diagnostics (c : collection) (id : N) (ds : list lsp_diag) : collection :=
  let same := match alookup N.eqb id (dc_native c) with
              | Some old => (length old =? length ds)%nat && zip_all are_diagnostics_equal ds old
              | None => false
              end in
  if same then c
  else {| dc_native := ainsert N.eqb id ds (dc_native c); dc_check := dc_check c; dc_fixes := dc_fixes c;
          dc_changes := set_insert id (dc_changes c) |}.
(** diagnostics.rs:81-88 [diagnostics_for] *)
Definition diagnostics_for (c : collection) (id : N) : list lsp_diag := entry (dc_native c) id ++ entry (dc_check c) id.
(** diagnostics.rs:90-95 [take_changes] *)
Definition take_changes (c : collection) : collection * option (list N) :=
  match dc_changes c with
  | [] => (c, None)
  | ch => ({| dc_native := dc_native c; dc_check := dc_check c; dc_fixes := dc_fixes c; dc_changes := [] |}, Some ch)
  end.

(** ide_diagnostics/src/lib.rs:90-102 [diagnostics]: message and range of each
    diagnostic; the range of a syntax error is empty (syntax_error.rs:24-26) *)
Definition file_diagnostics (db : database) (id : N) : res (list (text * N)) :=
  let! t := file_text db id in
  let! (_, errs) := source_file_parse t in
  Ok (map (fun e => (`"Syntax Error: " ++ se_msg e, se_pos e)) (firstn 128 errs)).

Fixpoint map_res {A B} (f : A -> res B) (l : list A) : res (list B) :=
  match l with
  | [] => Ok []
  | x :: r => let! y := f x in let! ys := map_res f r in Ok (y :: ys)
  end.
(** handlers.rs:17-32; severity and code are those of [Diagnostic::new]
    (ide_diagnostics/src/lib.rs:54-64) *)
Definition to_lsp (li : line_index) (d : text * N) : res lsp_diag :=
  let! r := tp_range Utf8 li (snd d) (snd d) in
  Ok {| d_range := r; d_severity := Some Error; d_code := `"syntax-error"; d_source := Some (`"move-language-server");
        d_message := fst d; d_unused := false |}.
(** handlers.rs:7-36 [publish_diagnostics], global_state.rs:222-227
    [file_line_index] (always Utf8; the line endings entry is only looked up).
    A cancelled query is not modelled here but in the scheduling (Server.v). *)
Definition publish_diagnostics (line_endings : list (N * endings)) (db : database) (id : N) : res (list lsp_diag) :=
  let! _ := index (alookup N.eqb id line_endings) in
  let! t := file_text db id in
  let! li := li_new t in
  let! ds := file_diagnostics db id in
  map_res (to_lsp li) ds.
