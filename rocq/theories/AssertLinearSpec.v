(** What it means that measurements look linear. *)
From Verif Require Import Base.
From Coq Require Import QArith Qabs.
Local Open Scope Q_scope.

(** the largest of some numbers *)
Definition largest (m : Q) (l : list Q) : Prop := In m l /\ Forall (fun x => x <= m) l.
(** all measurements lie on the line y = a + b * x *)
Definition on_line (a b : Q) (l : list (Q * Q)) : Prop := Forall (fun p => snd p == a + b * fst p) l.
(** there are measurements for two sizes *)
Definition two_sizes (l : list (Q * Q)) : Prop := exists p q, In p l /\ In q l /\ ~ fst p == fst q.
(** [n] measurements at the sizes s, 2s, ..., ns, with times that grow with the
    square of the size *)
Definition quadratic (n : nat) (s c : Q) : list (Q * Q) :=
  map (fun i => let x := inject_Z (Z.of_nat i) in (s * x, c * (x * x))) (seq 1 n).
(** the same with a linear part [e] *)
Definition mixed (n : nat) (s c e : Q) : list (Q * Q) :=
  map (fun i => let x := inject_Z (Z.of_nat i) in (s * x, c * (x * x) + e * x)) (seq 1 n).
(** the sum of the squares of the distances from a line *)
Fixpoint distance (a b : Q) (l : list (Q * Q)) : Q :=
  match l with [] => 0 | p :: r => (snd p - (a + b * fst p)) * (snd p - (a + b * fst p)) + distance a b r end.
