(** Specification of green trees: their leaves, their text, and the tree that
    remains without trivia. *)
From Verif Require Import Base Kinds Sink TreeSpec.
Local Open Scope N_scope.

(** the tokens of the tree, from left to right *)
Fixpoint gleaves (g : green) : list (kind * text) :=
  match g with
  | GNode _ cs => flat_map gleaves cs
  | GTok k w => [(k, w)]
  end.
(** the source text of the tree *)
Definition gtext (g : green) : text := concat (map snd (gleaves g)).
(** the tree without whitespace, comments and texts *)
Fixpoint strip (g : green) : list tree :=
  match g with
  | GNode k cs => [TNode k (flat_map strip cs)]
  | GTok k _ => if is_trivia k then [] else [TTok k]
  end.

(** A leaf shows a token of the lexer: same text, same kind; the parser may
    turn an integer into an address. *)
Definition shows (leaf token : kind * text) : Prop :=
  snd leaf = snd token /\
  (fst leaf = fst token \/ fst token = INTEGER_NUMBER /\ fst leaf = DIEM_ADDRESS).

(** offsets in non-decreasing order, from [lo] to at most [hi] *)
Fixpoint ascending (lo : N) (l : list N) (hi : N) : Prop :=
  match l with
  | [] => lo <= hi
  | x :: r => lo <= x /\ ascending x r hi
  end.

(** [inside x g]: the tree [x] is [g] or occurs below it *)
Inductive inside (x : green) : green -> Prop :=
| inside_here : inside x x
| inside_child k cs c : In c cs -> inside x c -> inside x (GNode k cs).

(** Blanks and comments stand between the children of a node: the first child
    and the last one are neither, and neither is the first token of its text. *)
Definition not_trivia (g : green) : Prop := match g with GTok k _ => is_trivia k = false | GNode _ _ => True end.
Definition tight (cs : list green) : Prop :=
  (forall x r, cs = x :: r -> not_trivia x) /\ (forall r x, cs = r ++ [x] -> not_trivia x) /\
  (forall p r, flat_map gleaves cs = p :: r -> is_trivia (fst p) = false).

(** ** Operator expressions as sequences
    [seq_of e] reads an expression from left to right: operands (subtrees that
    are not binary expressions) and operators. *)
Inductive item := Operand (t : tree) | Operator (k : kind).
Fixpoint seq_of (t : tree) : list item :=
  match t with
  | TNode BIN_EXPR [l; TTok op; r] => seq_of l ++ Operator op :: seq_of r
  | _ => [Operand t]
  end.
(** every binary expression reached from the top through operands is grouped
    by precedence, equal precedence to the left *)
Fixpoint grouped (t : tree) : Prop :=
  match t with
  | TNode BIN_EXPR [l; TTok op; r] =>
      (exists p, prec op = Some p /\ binds p l /\ binds (p + 1) r) /\ grouped l /\ grouped r
  | TNode BIN_EXPR _ => False
  | _ => True
  end.
