(** What a version should say. *)
From Coq Require Import String.
From Verif Require Import Base Version.
Local Open Scope N_scope.

(** a hash, a date: visible ASCII characters *)
Definition plain (t : text) : Prop := t <> [] /\ Forall (fun c => 33 <= c /\ c <= 126) t.
(** the version for the commit [hash], if there is one, on a day [date], where
    [var] is the version someone has asked for and [channel] the channel *)
Definition right (hash : option text) (date : text) (var channel : option text) (v : text) : Prop :=
  match var, hash with
  | Some x, _ => v = x
  | None, Some h => v = h ++ `" " ++ date ++ `" " ++ match channel with Some c => c | None => `"dev" end
  | None, None => v = `"???????"
  end.
Definition right_now (s : state) (v : text) : Prop :=
  right (current s) (s_date s) (variable s (`"MOVE_LANGUAGE_SERVER_REV")) (variable s (`"MOVE_LANGUAGE_SERVER_CHANNEL")) v.
(** a working copy in which nothing was built yet *)
Definition fresh (s : state) : Prop :=
  s_kept s = None /\ plain (s_date s) /\ Forall (fun p => plain (snd p)) (s_tips s) /\ match s_head s with Detached c => plain c | Branch _ => True end.
Definition good_event (e : event) : Prop :=
  match e with Commit c => plain c | Detach c => plain c | Day d => plain d | _ => True end.
(** the server is in a subdirectory of the working copy, which is not the root of
    the file system *)
Definition inside (manifest top : list text) : Prop := top <> [] /\ exists sub, manifest = sub ++ top.
