(** Model of crates/parser/src/{parser,marker,event}.rs.

    A grammar function is a value of type [prog]: a tree of primitive parser
    operations ([cmd]) and calls to grammar functions.  [exec] gives each
    primitive its effect on the parser state. *)
From Coq Require Import String.
From Verif Require Import Base Kinds TokenSet Lexer.
Local Open Scope N_scope.

(** event.rs:22-82 [Event]; positions and distances are [u32] in the code,
    here unbounded (simplification: fewer than 2^32 events) *)
Inductive event :=
| EStart (k : kind) (forward_parent : option nat)
| EFinish
| EToken (k : kind) (n_raw_tokens : nat)
| EError (msg : text).

(** event.rs:85-87 [tombstone] *)
Definition tombstone : event := EStart TOMBSTONE None.

(** parser.rs:23-27 [Parser] *)
Record pstate := PState { ps_lexer : lexer; ps_events : list event; ps_steps : N }.

(** parser.rs:30-32 [Parser::new] *)
Definition parser_new (lx : lexer) : pstate := PState lx [] 0.

(** marker.rs:48-57 [CompletedMarker].  A [Marker] (marker.rs:7-15) is the
    position of its start event; its drop bomb is not represented: GrammarProofs.v
    shows that each function completes or abandons each marker it creates. *)
Record cmark := CMark { cm_start : nat; cm_finish : nat; cm_kind : kind }.

Fixpoint set_nth {A} (l : list A) (n : nat) (x : A) : list A :=
  match l, n with
  | [], _ => []
  | _ :: r, O => x :: r
  | y :: r, S n' => y :: set_nth r n' x
  end.

(** Primitive operations. *)
Inductive cmd : Type -> Type :=
| CNth (n : nat) : cmd kind
| CCurrent : cmd kind
| CCurrentText : cmd text
| CStart : cmd nat
| CDoBump (k : kind) : cmd unit
| CError (msg : text) : cmd unit
| CComplete (m : nat) (k : kind) : cmd cmark
| CAbandon (m : nat) : cmd unit
| CPrecede (c : cmark) : cmd nat
| CAssert (b : bool) : cmd unit.

Definition push_event (s : pstate) (e : event) : pstate :=
  PState (ps_lexer s) (ps_events s ++ [e]) (ps_steps s).
Definition with_events (s : pstate) (es : list event) : pstate :=
  PState (ps_lexer s) es (ps_steps s).

(** parser.rs:59-67 [nth]; [n <= 3] holds at every call site of the grammar
    and is asserted here too *)
Definition exec_nth (n : nat) (s : pstate) : res (kind * pstate) :=
  let! _ := assert_ (Nat.leb n 3) in
  let! _ := assert_ (ps_steps s <=? 10000) in
  let! t := lx_lookahead_nth (ps_lexer s) n in
  Ok (t_kind t, PState (ps_lexer s) (ps_events s) (ps_steps s + 1)).

(** parser.rs:155-159 [start] *)
Definition exec_start (s : pstate) : nat * pstate :=
  (length (ps_events s), push_event s tombstone).

(** parser.rs:263-269 [do_bump], for [n_raw_tokens = 1] (the only value used) *)
Definition exec_do_bump (k : kind) (s : pstate) : res pstate :=
  let! lx := lx_bump (ps_lexer s) in
  Ok (PState lx (ps_events s ++ [EToken k 1]) (ps_steps s)).

(** marker.rs:20-32 [Marker::complete] *)
Definition exec_complete (m : nat) (k : kind) (s : pstate) : res (cmark * pstate) :=
  match nth_error (ps_events s) m with
  | Some (EStart _ fp) =>
      let es := set_nth (ps_events s) m (EStart k fp) in
      Ok (CMark m (length es) k, with_events s (es ++ [EFinish]))
  | Some _ => Panic PUnreachable
  | None => Panic PIndex
  end.

(** marker.rs:36-45 [Marker::abandon] *)
Definition exec_abandon (m : nat) (s : pstate) : res pstate :=
  if Nat.eqb (S m) (length (ps_events s)) then
    match nth_error (ps_events s) m with
    | Some (EStart TOMBSTONE None) => Ok (with_events s (removelast (ps_events s)))
    | _ => Panic PUnreachable
    end
  else Ok s.

(** marker.rs:72-82 [CompletedMarker::precede] *)
Definition exec_precede (c : cmark) (s : pstate) : res (nat * pstate) :=
  let (new_pos, s1) := exec_start s in
  match nth_error (ps_events s1) (cm_start c) with
  | Some (EStart k _) =>
      let! d := (if Nat.leb (cm_start c) new_pos then Ok (new_pos - cm_start c)%nat
                 else Panic POverflow) in
      Ok (new_pos, with_events s1 (set_nth (ps_events s1) (cm_start c) (EStart k (Some d))))
  | Some _ => Panic PUnreachable
  | None => Panic PIndex
  end.

Definition exec {B} (c : cmd B) (s : pstate) : res (B * pstate) :=
  match c with
  | CNth n => exec_nth n s
  | CCurrent => Ok (t_kind (lx_current (ps_lexer s)), s)          (* parser.rs:48-51 *)
  | CCurrentText =>                                               (* parser.rs:53-55 *)
      let! t := lx_current_text (ps_lexer s) in Ok (t, s)
  | CStart => Ok (exec_start s)
  | CDoBump k => let! s' := exec_do_bump k s in Ok (tt, s')
  | CError msg => Ok (tt, push_event s (EError msg))              (* parser.rs:194-197 *)
  | CComplete m k => exec_complete m k s
  | CAbandon m => let! s' := exec_abandon m s in Ok (tt, s')
  | CPrecede c => exec_precede c s
  | CAssert b => let! _ := assert_ b in Ok (tt, s)
  end.

(** Grammar functions that are recursive or loops; the others are plain
    definitions in Grammar.v.  A loop is a tail-recursive function. *)
Inductive semi := SemiYes | SemiNo | SemiOptional.   (* grammar/expressions.rs:11-15 *)
Inductive fn :=
| F_skip_until (ts : list kind)      (* loop of parser.rs:233-238 *)
| F_root                             (* loop of grammar.rs:65-77 *)
| F_address_items                    (* loop of grammar/items.rs:87-89 *)
| F_items                            (* loop of grammar/items.rs:98-100 *)
| F_record_fields                    (* loop of grammar/items/adt.rs:46-55 *)
| F_generic_params                   (* loop of grammar/generic_params.rs:17-22 *)
| F_bounds                           (* loop of grammar/generic_params.rs:69-73 *)
| F_params                           (* loop of grammar/params.rs:14-35 *)
| F_path_for_qualifier (qual : cmark)(* grammar/paths.rs:32-45 *)
| F_type                             (* grammar/types.rs:21-30 *)
| F_block_contents                   (* grammar.rs:33-37 *)
| F_expr_block_contents              (* grammar/expressions.rs:259-267 *)
| F_expr_bp (bp : N)                 (* grammar/expressions.rs:22-40 *)
| F_expr_bp_loop (bp : N) (lhs : cmark)
| F_postfix (lhs : cmark)            (* grammar/expressions.rs:42-51 *)
| F_args                             (* loop of grammar/expressions.rs:76-88 *)
| F_paren                            (* loop of grammar/expressions/atom.rs:149-169 *)
| F_record_expr_fields               (* loop of grammar/expressions.rs:222-254 *)
| F_pattern                          (* grammar/patterns.rs:49-66 *)
| F_tuple_pat (has_comma has_pat has_rest : bool)  (* loop of grammar/patterns.rs:30-43 *)
| F_record_pat_fields.               (* loop of grammar/patterns.rs:115-144 *)

(** Return types.  [F_tuple_pat] returns its three flags, [F_paren] whether the
    loop ran to its end (false: the early return of atom.rs:155-158). *)
Definition fn_ret (f : fn) : Type :=
  match f with
  | F_expr_bp _ | F_expr_bp_loop _ _ => option cmark
  | F_postfix _ => cmark
  | F_paren => bool
  | F_tuple_pat _ _ _ => bool * bool * bool
  | _ => unit
  end.

Inductive prog (A : Type) : Type :=
| Ret (a : A)
| Do {B} (c : cmd B) (k : B -> prog A)
| Call (f : fn) (k : fn_ret f -> prog A).
Arguments Ret {A} a.
Arguments Do {A B} c k.
Arguments Call {A} f k.

Fixpoint pbind {A B} (p : prog A) (q : A -> prog B) : prog B :=
  match p with
  | Ret a => q a
  | Do c k => Do c (fun b => pbind (k b) q)
  | Call f k => Call f (fun b => pbind (k b) q)
  end.

Declare Scope prog_scope.
Delimit Scope prog_scope with prog.
Notation "x <- p ;; q" := (pbind p (fun x => q))
  (at level 61, p at next level, right associativity) : prog_scope.
Notation "p ;; q" := (pbind p (fun _ => q)) (at level 61, right associativity) : prog_scope.
Bind Scope prog_scope with prog.
Open Scope prog_scope.

Definition do_ {B} (c : cmd B) : prog B := Do c Ret.
Definition call (f : fn) : prog (fn_ret f) := Call f Ret.

(** Running a program, given the meaning of the calls. *)
Fixpoint interp (rec : forall f, pstate -> res (fn_ret f * pstate)) {A} (p : prog A) (s : pstate)
  : res (A * pstate) :=
  match p with
  | Ret a => Ok (a, s)
  | Do c k => let! (b, s') := exec c s in interp rec (k b) s'
  | Call f k => let! (b, s') := rec f s in interp rec (k b) s'
  end.

(** Short-circuit operators. *)
Definition orp (a b : prog bool) : prog bool := x <- a ;; if x then Ret true else b.
Definition andp (a b : prog bool) : prog bool := x <- a ;; if x then b else Ret false.
Definition notp (a : prog bool) : prog bool := x <- a ;; Ret (negb x).
Definition whenp (b : bool) (p : prog unit) : prog unit := if b then p else Ret tt.

Definition current : prog kind := do_ CCurrent.
Definition current_text : prog text := do_ CCurrentText.
Definition nth_ (n : nat) : prog kind := do_ (CNth n).
Definition start : prog nat := do_ CStart.
Definition error (msg : text) : prog unit := do_ (CError msg).
Definition complete (m : nat) (k : kind) : prog cmark := do_ (CComplete m k).
Definition abandon (m : nat) : prog unit := do_ (CAbandon m).
Definition precede (c : cmark) : prog nat := do_ (CPrecede c).
Definition do_bump (k : kind) : prog unit := do_ (CDoBump k).
Definition assert_p (b : prog bool) : prog unit := x <- b ;; do_ (CAssert x).

(** parser.rs:74-103 [nth_at] *)
Definition nth_at (n : nat) (k : kind) : prog bool := x <- nth_ n ;; Ret (kind_eqb x k).
(** parser.rs:70-72 [at] *)
Definition at_ (k : kind) : prog bool := nth_at 0 k.

(** Token sets are given by the lists of kinds they are built from;
    [TokenSet::contains] is the bit test of TokenSet.v. *)
Definition ts_has (ts : list kind) (k : kind) : bool :=
  match ts_new ts with
  | Ok s => match ts_contains s k with Ok b => b | _ => false end
  | _ => false
  end.

(** parser.rs:143-145 [at_ts] *)
Definition at_ts (ts : list kind) : prog bool := c <- current ;; Ret (ts_has ts c).

(** parser.rs:106-118 [eat] *)
Definition eat (k : kind) : prog bool :=
  a <- at_ k ;; if a then do_bump k ;; Ret true else Ret false.
(** parser.rs:162-164 [bump] *)
Definition bump (k : kind) : prog unit := assert_p (eat k).
(** parser.rs:167-174 [bump_any] *)
Definition bump_any : prog unit :=
  k <- current ;; if kind_eqb k EOF then Ret tt else do_bump k.
(** parser.rs:182-188 [bump_remap] *)
Definition bump_remap (k : kind) : prog unit :=
  c <- nth_ 0 ;; if kind_eqb c EOF then Ret tt else do_bump k.
(** parser.rs:201-207 [expect] *)
Definition expect (k : kind) : prog bool :=
  e <- eat k ;;
  if e then Ret true else error (`"expected " ++ kind_name k) ;; Ret false.
(** parser.rs:243-261 [err_recover] *)
Definition err_recover (msg : text) (recovery : list kind) : prog unit :=
  c <- current ;;
  if kind_eqb c L_BRACE || kind_eqb c R_BRACE then error msg
  else
    r <- at_ts recovery ;;
    if r then error msg
    else m <- start ;; error msg ;; bump_any ;; complete m ERROR ;; Ret tt.
(** parser.rs:210-222 [err_and_bump] *)
Definition err_and_bump (msg : text) : prog unit := err_recover msg [].
(** parser.rs:224-240 [error_and_skip_until] *)
Definition error_and_skip_until (msg : text) (end_tokens : list kind) : prog cmark :=
  m <- start ;; error msg ;; call (F_skip_until (end_tokens ++ [EOF])) ;; complete m ERROR.
Definition skip_until_body (ts : list kind) : prog unit :=
  c <- current ;;
  if ts_has ts c then Ret tt else bump_any ;; call (F_skip_until ts).
