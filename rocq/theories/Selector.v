(** Which servers the editor tells about a document:
    editors/code/src/components/client.ts:21-58 [createLanguageServerClient], and
    the matching of document selectors in the editor. *)
From Coq Require Import String.
From Verif Require Import Base.
Local Open Scope N_scope.

(** a path is the list of its names; the names of a project folder are taken to
    have none of the characters that mean something in a pattern *)
Notation path := (list text) (only parsing).
Record document := Document { doc_scheme : text; doc_language : text; doc_path : path }.

(** VS Code: glob patterns, segment by segment.  [*] is one name, [**] any number
    of names, also none. *)
Inductive segment := Name (n : text) | Star | DoubleStar.
Fixpoint glob (ps : list segment) (xs : path) : bool :=
  match ps with
  | [] => match xs with [] => true | _ => false end
  | Name n :: ps => match xs with x :: xs => text_eqb n x && glob ps xs | [] => false end
  | Star :: ps => match xs with _ :: xs => glob ps xs | [] => false end
  | DoubleStar :: ps =>
      (fix any (xs : path) : bool := glob ps xs || match xs with _ :: xs => any xs | [] => false end) xs
  end.
(** VS Code: a filter of a document selector, all parts of which must match *)
Record filter_ := Filter { fl_scheme : text; fl_language : text; fl_pattern : list segment }.
Definition selects (f : filter_) (d : document) : bool :=
  text_eqb (fl_scheme f) (doc_scheme d) && text_eqb (fl_language f) (doc_language d) && glob (fl_pattern f) (doc_path d).
(** client.ts:40-47 [documentSelector], with [projectRoot] of line 26 *)
Definition selector (root : path) : filter_ := Filter (`"file") (`"move") (map Name root ++ [DoubleStar; Star]).
(** the servers that are told about a document, each by its folder: vscode-languageclient
    sends what its selector selects *)
Definition told (servers : list path) (d : document) : list path := filter (fun root => selects (selector root) d) servers.

(** VS Code: workspace.getWorkspaceFolder, the innermost folder a document is in *)
Fixpoint below (root xs : path) : bool :=
  match root, xs with
  | [], _ => true
  | n :: root, x :: xs => text_eqb n x && below root xs
  | _, [] => false
  end.
Definition innermost (folders : list path) (xs : path) : option path :=
  fold_left (fun best f => if below f xs then match best with Some b => if (length b <? length f)%nat then Some f else best | None => Some f end else best) folders None.
