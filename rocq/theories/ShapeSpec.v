(** What it means that two files are written with the same tokens, and that
    two parses have the same outcome up to the wording of the tokens. *)
From Coq Require Import String.
From Verif Require Import Base Kinds LexSpec Sink.
Local Open Scope N_scope.

Definition looks_hex (w : text) : Prop := exists r, w = `"0x" ++ r.

(** Two tokens of the same kind; the wording may differ, but both or neither
    begin with "0x". *)
Definition alike (p q : kind * text) : Prop :=
  fst p = fst q /\ (looks_hex (snd p) <-> looks_hex (snd q)).

(** Two trees that differ in the wording of their tokens only. *)
Inductive same_shape : green -> green -> Prop :=
| shape_tok k w w' : same_shape (GTok k w) (GTok k w')
| shape_node k cs cs' : same_shapes cs cs' -> same_shape (GNode k cs) (GNode k cs')
with same_shapes : list green -> list green -> Prop :=
| shapes_nil : same_shapes [] []
| shapes_cons g g' cs cs' : same_shape g g' -> same_shapes cs cs' -> same_shapes (g :: cs) (g' :: cs').

(** Where the [i]th token of a file starts. *)
Definition token_start (ws : list (kind * text)) (i : nat) : N := tlen (concat (map snd (firstn i ws))).

(** The same message at the start of the same token. *)
Definition same_error (ws ws' : list (kind * text)) (e e' : syntax_error) : Prop :=
  se_msg e = se_msg e' /\ exists i, (i <= length ws)%nat /\ se_pos e = token_start ws i /\ se_pos e' = token_start ws' i.

Definition same_outcome (ws ws' : list (kind * text)) (r r' : res (green * list syntax_error)) : Prop :=
  match r, r' with
  | Ok (g, errs), Ok (g', errs') => same_shape g g' /\ Forall2 (same_error ws ws') errs errs'
  | Panic w, Panic w' => w = w'
  | _, _ => False
  end.

(** The same tokens with other runs of blanks: every run of blanks is replaced
    by some other run of blanks. *)
Definition reblanked (p q : kind * text) : Prop :=
  fst p = fst q /\
  (if kind_eqb (fst p) WHITESPACE then snd q <> [] /\ Forall blank (snd q) else snd q = snd p).

(** The byte strings among the tokens hold ASCII characters only. *)
Definition ascii_literals (ws : list (kind * text)) : Prop :=
  Forall (fun p => fst p = BYTE_STRING -> ascii (snd p)) ws.
