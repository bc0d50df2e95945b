(** Which text of a document a published list of diagnostics is about.

    A schedule is a list of labels; the moments of a run are numbered by how
    many labels have been handled. *)
From Coq Require Import String.
From Verif Require Import Base Utf8Proofs LineIndex LineEndings Diagnostics Server ServerSpec DiagSpec.
Local Open Scope N_scope.

(** After [k] labels of the schedule [ls] the document at [comps] was open, and
    [ds] are the diagnostics of the text it had then (line endings aside). *)
Definition told_at (ho : hash_order) (c : Database.root_config) (did_save : bool) (ls : list label)
    (k : nat) (comps : list text) (ds : list lsp_diag) : Prop :=
  (k <= length ls)%nat /\
  exists out s v t, serve ho c did_save (firstn k ls) = (out, Alive s) /\ holds s comps v t /\ scalars t /\
    diagnoses Utf8 (crlf_to_lf t) ds.

(** a message that opens the document at [comps] *)
Definition opens_doc (comps : list text) (m : message) : Prop :=
  exists v t, m = MNotification (NDidOpen (Some {| op_url := UFile comps; op_version := v; op_text := t |})).

(** The client touches its documents only when the server has nothing left to
    do and all results have been received. *)
Definition patient (ho : hash_order) (c : Database.root_config) (did_save : bool) (ls : list label) : Prop :=
  forall before m cuts after comps out s, ls = before ++ LMsg m cuts :: after -> about comps m ->
    serve ho c did_save before = (out, Alive s) -> settled s.
