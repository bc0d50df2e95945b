(** Where a document is. *)
From Coq Require Import String.
From Verif Require Import Base Selector.

(** in a folder or in a folder of it *)
Definition inside_of (d : document) (root : list text) : Prop := exists n rest, doc_path d = root ++ n :: rest.
Definition move_file (d : document) : Prop := doc_scheme d = `"file" /\ doc_language d = `"move".
(** no folder is in another one, and none is listed twice *)
Definition separate (folders : list (list text)) : Prop :=
  NoDup folders /\ forall f g rest, In f folders -> In g folders -> g = f ++ rest -> f = g.
