(** Model of crates/parser/src/token_set.rs *)
From Verif Require Import Base Kinds.
Local Open Scope N_scope.

(** token_set.rs:5 [TokenSet(u128)] *)
Definition token_set := N.
Definition u128_bound : N := 340282366920938463463374607431768211456.

(** token_set.rs:29-31 [mask]: [1u128 << (kind as usize)]; a shift of 128 or
    more overflows (panic in the debug profile) *)
Definition ts_mask (k : kind) : res N :=
  if kind_to_n k <? 128 then Ok (N.shiftl 1 (kind_to_n k)) else Panic POverflow.

(** token_set.rs:8 [EMPTY] *)
Definition ts_empty : token_set := 0.

(** token_set.rs:10-18 [new]: the loop or-s the masks, left to right *)
Fixpoint ts_new_from (acc : N) (ks : list kind) : res token_set :=
  match ks with
  | [] => Ok acc
  | k :: r => let! m := ts_mask k in ts_new_from (N.lor acc m) r
  end.
Definition ts_new (ks : list kind) : res token_set := ts_new_from 0 ks.

(** token_set.rs:20-22 [union] *)
Definition ts_union (a b : token_set) : token_set := N.lor a b.

(** token_set.rs:24-26 [contains] *)
Definition ts_contains (s : token_set) (k : kind) : res bool :=
  let! m := ts_mask k in Ok (negb (N.land s m =? 0)).
