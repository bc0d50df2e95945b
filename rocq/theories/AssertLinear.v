(** Model of crates/test_utils/src/assert_linear.rs, the check that running
    times grow linearly.

    Simplified: measurements are rational numbers and arithmetic on them is
    exact, where the code uses f64 and rounds.  A division by zero, which in f64
    gives NaN or an infinity and makes every comparison at the end false, is
    [None].  The plot that is printed is left out. *)
From Verif Require Import Base.
From Coq Require Import QArith Qabs.
Local Open Scope Q_scope.

(** measurements: pairs of a size and a time *)
Definition sample : Type := Q * Q.
(** assert_linear.rs:26-30 [Round] *)
Record round := Round { r_samples : list sample; r_linear : bool }.

(** Iterator::sum, from 0.0 on *)
Definition qsum (l : list Q) : Q := fold_left Qplus l 0.
Definition qlen {A} (l : list A) : Q := inject_Z (Z.of_nat (length l)).
(** assert_linear.rs:108-110 [mean] *)
Definition mean (l : list Q) : Q := qsum l / qlen l.
(** Iterator::max_by: the largest, of equal ones the last; [None] of nothing *)
Definition qmax (l : list Q) : option Q :=
  match l with [] => None | x :: r => Some (fold_left (fun m y => if Qle_bool m y then y else m) r x) end.
(** assert_linear.rs:103-106 [normalize] *)
Definition normalize (l : list Q) : res (option (list Q)) :=
  let! m := unwrap (qmax l) in
  Ok (if Qeq_bool m 0 then None else Some (map (fun x => x / m) l)).

Definition sq (x : Q) : Q := x * x.
(** assert_linear.rs:68-84: the line y = a + b * x that fits best *)
Definition regression (xs ys : list Q) : option (Q * Q) :=
  let mean_x := mean xs in
  let mean_y := mean ys in
  let xy := combine xs ys in
  let num := fold_left (fun n p => n + (fst p - mean_x) * (snd p - mean_y)) xy 0 in
  let denom := fold_left (fun n p => n + sq (fst p - mean_x)) xy 0 in
  if Qeq_bool denom 0 then None
  else let b := num / denom in let a := mean_y - b * mean_x in Some (a, b).

Definition qltb (x y : Q) : bool := negb (Qle_bool y x).
(** assert_linear.rs:88-101: rmse < 0.05, stated without the root, max_error <
    0.1 and a > -0.1 *)
Definition looks_linear (xs ys : list Q) (a b : Q) : bool :=
  let xy := combine xs ys in
  let se := fold_left (fun s p => s + sq (snd p - (a + b * fst p))) xy 0 in
  let max_error := fold_left (fun m p => let e := Qabs ((a + b * fst p) - snd p) in if Qle_bool m e then e else m) xy 0 in
  qltb (se / qlen xs) (sq (1 # 20)) && qltb max_error (1 # 10) && qltb (- (1 # 10)) a.
(** assert_linear.rs:62-101 [Round::finish]: the value of [linear] *)
Definition finish (samples : list sample) : res bool :=
  let! xs := normalize (map fst samples) in
  let! ys := normalize (map snd samples) in
  Ok (match xs, ys with
      | Some xs, Some ys =>
          match regression xs ys with Some (a, b) => looks_linear xs ys a b | None => false end
      | _, _ => false
      end).

(** assert_linear.rs:33-43 [next_round]; the rounds, the last one first *)
Definition next_round (rounds : list round) : res (bool * list round) :=
  let! rounds := match rounds with
                 | [] => Ok []
                 | r :: rest => let! l := finish (r_samples r) in Ok (Round (r_samples r) l :: rest)
                 end in
  if existsb r_linear rounds || (length rounds =? 4)%nat then Ok (false, rounds)
  else Ok (true, Round [] false :: rounds).
(** assert_linear.rs:45-47 [sample] *)
Definition take_sample (rounds : list round) (s : sample) : res (list round) :=
  match rounds with
  | [] => Panic PUnwrap
  | r :: rest => Ok (Round (r_samples r ++ [s]) (r_linear r) :: rest)
  end.
(** assert_linear.rs:50-60 [drop]: a panic means that the test fails *)
Definition drop (rounds : list round) : res unit :=
  let! _ := assert_ (match rounds with [] => false | _ => true end) in
  if forallb (fun r => negb (r_linear r)) rounds then Panic PUnreachable else Ok tt.

Fixpoint take_samples (rounds : list round) (ss : list sample) : res (list round) :=
  match ss with [] => Ok rounds | s :: r => let! rounds := take_sample rounds s in take_samples rounds r end.
(** How the type is used: [while al.next_round() { for ... { al.sample(x, y) } }],
    with the end of the scope of [al] behind it.  [measure i] are the samples
    taken in round [i]; the result tells how many rounds were measured. *)
Fixpoint rounds_loop (fuel : nat) (measure : nat -> list sample) (i : nat) (rounds : list round) : res (nat * list round) :=
  match fuel with
  | O => Fuel
  | S fuel =>
      let! (go, rounds) := next_round rounds in
      if go then let! rounds := take_samples rounds (measure i) in rounds_loop fuel measure (S i) rounds
      else Ok (i, rounds)
  end.
Definition assert_linear (measure : nat -> list sample) : res nat :=
  let! (n, rounds) := rounds_loop 6 measure 0 [] in
  let! _ := drop rounds in Ok n.
