(** What should be written when a thread panics. *)
From Coq Require Import String.
From Verif Require Import Base PanicContext.

(** A report of a panic: if any scopes are open around it, a heading and their
    contexts, the outermost first; then the standard message. *)
Definition report (open : list text) (m : text) : list line :=
  (if (length open =? 0)%nat then []
   else Printed (`"Panic context:" ++ [cLF]) :: map (fun c => Printed (`"> " ++ c ++ [cLF; cLF])) open)
  ++ [Standard m].

(** What a piece of code writes, and whether it ends with a panic, if the scopes
    [open] are around it in the text of the program. *)
Inductive writes : list text -> code -> list line -> bool -> Prop :=
| w_pass open : writes open Pass [] false
| w_fail open m : writes open (Fail m) (report open m) true
| w_guarded open c b o p : writes (open ++ [c]) b o p -> writes open (Guarded c b) o p
| w_caught open b o p : writes open b o p -> writes open (Caught b) o false
| w_then open a b o o' p : writes open a o false -> writes open b o' p -> writes open (Then a b) (o ++ o') p
| w_then_panic open a b o : writes open a o true -> writes open (Then a b) o true.

(** The lines thread [i] has written. *)
Definition written (i : nat) (w : world) : list line :=
  map snd (filter (fun l => Nat.eqb (fst l) i) (out w)).

(** The report that goes with a message whose handler panics, and whether the main
    thread survives it. *)
Definition message_report (m : message) : list line :=
  match m with
  | SyncMut method params (Some p) | Sync method params (Some p) =>
      report [[cLF] ++ `"request: " ++ method ++ `" " ++ params] p
  | Notify method (Some p) => report [[cLF] ++ `"notification: " ++ method] p
  | Undecoded p => report [] p
  | _ => []
  end.
Definition survives (m : message) : Prop :=
  match m with SyncMut _ _ (Some _) | Notify _ (Some _) | Undecoded _ => False | _ => True end.
