(** Specification of syntax trees, independent of the parser: trees without
    trivia, their leaves, and the shape of binary expressions. *)
From Verif Require Import Base Kinds.
Local Open Scope N_scope.

Inductive tree :=
| TNode (k : kind) (children : list tree)
| TTok (k : kind)
| TErr (msg : text).

(** token kinds, from left to right *)
Fixpoint leaves (t : tree) : list kind :=
  match t with
  | TNode _ cs => flat_map leaves cs
  | TTok k => [k]
  | TErr _ => []
  end.

(** The messages of a forest, from left to right, each with the number of tokens
    in front of it; [n] tokens stand in front of the forest.  Blanks and comments
    do not count. *)
Definition solid_leaves (f : list tree) : list kind := filter (fun k => negb (is_trivia k)) (flat_map leaves f).
Fixpoint noted1 (n : nat) (t : tree) : list (text * nat) :=
  match t with
  | TNode _ cs =>
      (fix go (n : nat) (l : list tree) : list (text * nat) :=
         match l with [] => [] | x :: r => noted1 n x ++ go (n + length (solid_leaves [x]))%nat r end) n cs
  | TTok _ => []
  | TErr m => [(m, n)]
  end.
Fixpoint noted (n : nat) (f : list tree) : list (text * nat) :=
  match f with [] => [] | x :: r => noted1 n x ++ noted (n + length (solid_leaves [x])) r end.

(** Binding powers of the binary operators (larger binds tighter). *)
Definition prec (k : kind) : option N :=
  match k with
  | EQ => Some 1
  | GT | LT => Some 5
  | PIPE => Some 6
  | CARET => Some 7
  | AMP => Some 8
  | PLUS | MINUS => Some 10
  | STAR | SLASH | MOD => Some 11
  | _ => None
  end.

(** [t] is a node that is not a binary expression, or one whose operator binds
    at least as tightly as [n] *)
Definition binds (n : N) (t : tree) : Prop :=
  match t with
  | TNode BIN_EXPR [_; TTok op; _] => exists p, prec op = Some p /\ n <= p
  | TNode BIN_EXPR _ => False
  | TNode _ _ => True
  | _ => False
  end.

(** A binary expression is: operand, operator, operand; the left operand may
    contain operators of the same binding power, the right one only tighter ones. *)
Definition bin_shape (cs : list tree) : Prop :=
  exists l op r p, cs = [l; TTok op; r] /\ prec op = Some p /\ binds p l /\ binds (p + 1) r.

Definition node_ok (k : kind) (cs : list tree) : Prop := k = BIN_EXPR -> bin_shape cs.

(** every node of the tree is proper: not a TOMBSTONE, and [node_ok] *)
Fixpoint tree_ok (t : tree) : Prop :=
  match t with
  | TNode k cs => k <> TOMBSTONE /\ node_ok k cs /\
      (fix all (l : list tree) : Prop := match l with [] => True | x :: r => tree_ok x /\ all r end) cs
  | _ => True
  end.
