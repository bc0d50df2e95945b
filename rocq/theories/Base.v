(** Shared vocabulary of the model: results with explicit panics, 32-bit
    arithmetic, Unicode texts and association lists.

    Nothing here models a function of the repository by itself; it is the
    fragment of Rust's core library that the modelled code relies on. *)
From Coq Require Export List NArith ZArith Lia Bool Arith.
From Coq Require Export ZifyBool ZifyNat ZifyN.
From Coq Require Import String Ascii.
Export ListNotations.

Arguments N.add : simpl never.
Arguments N.sub : simpl never.
Arguments N.mul : simpl never.
Arguments N.leb : simpl never.
Arguments N.ltb : simpl never.
Arguments N.eqb : simpl never.

(** ** Results.  A Rust panic is a value; [Fuel] marks an exhausted recursion
    bound of the *model* (it never denotes a behaviour of the program, and
    each theorem excludes it explicitly). *)
Inductive why :=
| PIndex        (* slice / Vec / HashMap index out of bounds *)
| PSlice        (* str slice not on a char boundary or out of range *)
| PAssert       (* assert!, TextRange::new start <= end, ... *)
| PUnwrap       (* Option/Result::unwrap on None/Err *)
| PTodo         (* todo!() / unimplemented!() *)
| PUnreachable  (* unreachable!() / panic!() *)
| POverflow     (* arithmetic overflow, debug profile *)
| PBomb         (* drop_bomb: marker neither completed nor abandoned *).

Inductive res (A : Type) : Type :=
| Ok (a : A)
| Panic (w : why)
| Fuel.
Arguments Ok {A} a.
Arguments Panic {A} w.
Arguments Fuel {A}.

Definition bind {A B} (m : res A) (f : A -> res B) : res B :=
  match m with Ok a => f a | Panic w => Panic w | Fuel => Fuel end.
Notation "'let!' x ':=' m 'in' k" := (bind m (fun x => k))
  (at level 200, x pattern, m at level 100, k at level 200, right associativity).
Notation "m >>= f" := (bind m f) (at level 50, left associativity).

Definition unwrap {A} (o : option A) : res A :=
  match o with Some a => Ok a | None => Panic PUnwrap end.
Definition index {A} (o : option A) : res A :=
  match o with Some a => Ok a | None => Panic PIndex end.
Definition assert_ (b : bool) : res unit := if b then Ok tt else Panic PAssert.

(** ** u32 arithmetic, debug profile: overflow panics. *)
Definition u32_max : N := 4294967295%N.
Definition u32_bound : N := 4294967296%N.
Definition u32_add (a b : N) : res N :=
  if (a + b <? u32_bound)%N then Ok (a + b)%N else Panic POverflow.
Definition u32_sub (a b : N) : res N :=
  if (b <=? a)%N then Ok (a - b)%N else Panic POverflow.

(** ** Texts: lists of Unicode code points.  Rust strings only hold scalar
    values ([is_scalar]); most functions do not care and are stated for all
    lists. *)
Notation char := N (only parsing).
Notation text := (list N) (only parsing).

Definition is_scalar (c : char) : bool :=
  ((c <? 0xD800)%N || ((0xE000 <=? c)%N && (c <=? 0x10FFFF)%N)).

(** core::char::len_utf8 / len_utf16 *)
Definition utf8_len (c : char) : N :=
  (if c <? 0x80 then 1 else if c <? 0x800 then 2
  else if c <? 0x10000 then 3 else 4)%N.
Definition utf16_len (c : char) : N := (if c <? 0x10000 then 1 else 2)%N.

(** [str::len]: length in bytes. *)
Fixpoint tlen (t : text) : N :=
  match t with [] => 0 | c :: r => utf8_len c + tlen r end%N.
(** length in UTF-16 code units *)
Fixpoint tlen16 (t : text) : N :=
  match t with [] => 0 | c :: r => utf16_len c + tlen16 r end%N.

(** Split at a byte offset; [None] when the offset is inside a character or
    past the end (where Rust's str slicing panics). *)
Fixpoint split_at (t : text) (n : N) : option (text * text) :=
  if (n =? 0)%N then Some ([], t) else
  match t with
  | [] => None
  | c :: r =>
      if (n <? utf8_len c)%N then None
      else match split_at r (n - utf8_len c) with
           | Some (a, b) => Some (c :: a, b)
           | None => None
           end
  end.

(** &s[n..] and &s[..n] *)
Definition slice_from (t : text) (n : N) : res text :=
  match split_at t n with Some (_, b) => Ok b | None => Panic PSlice end.
Definition slice_to (t : text) (n : N) : res text :=
  match split_at t n with Some (a, _) => Ok a | None => Panic PSlice end.

Definition cLF : char := 10%N.
Definition cCR : char := 13%N.

(** ASCII literals for readable models and examples. *)
Fixpoint str (s : string) : text :=
  match s with
  | EmptyString => []
  | String a r => N_of_ascii a :: str r
  end.
Notation "'`' s" := (str s%string) (at level 1, format "'`' s").

Fixpoint text_eqb (a b : text) : bool :=
  match a, b with
  | [], [] => true
  | x :: a', y :: b' => (x =? y)%N && text_eqb a' b'
  | _, _ => false
  end.

(** str::starts_with *)
Fixpoint starts_with (t p : text) : bool :=
  match p, t with
  | [], _ => true
  | y :: p', x :: t' => (x =? y)%N && starts_with t' p'
  | _ :: _, [] => false
  end.

(** ** Association lists, for HashMap / IndexMap / BTreeMap. *)
Section Amap.
  Context {K V : Type} (eqb : K -> K -> bool).
  Definition amap := list (K * V).
  Fixpoint alookup (k : K) (m : amap) : option V :=
    match m with
    | [] => None
    | (k', v) :: r => if eqb k' k then Some v else alookup k r
    end.
  Fixpoint ainsert (k : K) (v : V) (m : amap) : amap :=
    match m with
    | [] => [(k, v)]
    | (k', v') :: r => if eqb k' k then (k', v) :: r else (k', v') :: ainsert k v r
    end.
  Fixpoint aremove (k : K) (m : amap) : amap :=
    match m with
    | [] => []
    | (k', v') :: r => if eqb k' k then aremove k r else (k', v') :: aremove k r
    end.
  Definition amem (k : K) (m : amap) : bool :=
    match alookup k m with Some _ => true | None => false end.
End Amap.

(** slice::partition_point: index of the first element not satisfying [p].
    The real function is a binary search, which on a partitioned slice finds
    this index (see Stdx.v for the model of the search itself). *)
Fixpoint partition_point {A} (p : A -> bool) (l : list A) : nat :=
  match l with
  | [] => 0
  | x :: r => if p x then S (partition_point p r) else 0
  end.
