(** Model of crates/parser/src/event.rs [process], of
    crates/syntax/src/parsing/text_tree_sink.rs, crates/syntax/src/parsing.rs,
    crates/syntax/src/syntax_node.rs and [SourceFile::parse]
    (crates/syntax/src/lib.rs). *)
From Coq Require Import String.
From Verif Require Import Base Kinds Lexer Parser Grammar.
Local Open Scope N_scope.

(** ** event.rs:91-133 [process].  The calls made on the sink are returned as
    a list, in order; crates/parser/src/lib.rs:24-36 [TreeSink]. *)
Inductive sink_call :=
| SStart (k : kind)
| SFinish
| SToken (k : kind) (n : nat)
| SError (msg : text).

(** event.rs:105-120: follow the chain of forward parents from [idx],
    replacing each event by a tombstone; [acc] is [forward_parents], last
    pushed first.  [fuel] bounds the chain. *)
Fixpoint follow (fuel : nat) (idx : nat) (fp : option nat) (evs : list event) (acc : list kind)
  : res (list kind * list event) :=
  match fp with
  | None => Ok (acc, evs)
  | Some fwd =>
      match fuel with
      | O => Fuel
      | S fuel' =>
          let idx := (idx + fwd)%nat in
          let! e := index (nth_error evs idx) in
          let evs := set_nth evs idx tombstone in
          match e with
          | EStart k fp' =>
              follow fuel' idx fp' evs (if kind_eqb k TOMBSTONE then acc else k :: acc)
          | _ => Panic PUnreachable
          end
      end
  end.

(** event.rs:94-132: the loop, for the [n] indices from [i] on *)
Fixpoint process_from (n i : nat) (evs : list event) : res (list sink_call) :=
  match n with
  | O => Ok []
  | S n' =>
      let! e := index (nth_error evs i) in
      let evs := set_nth evs i tombstone in
      match e with
      | EStart k fp =>
          if kind_eqb k TOMBSTONE then process_from n' (S i) evs
          else
            let! (kinds, evs) := follow (length evs) i fp evs [k] in
            let! r := process_from n' (S i) evs in
            Ok (map SStart kinds ++ r)
      | EFinish => let! r := process_from n' (S i) evs in Ok (SFinish :: r)
      | EToken k c => let! r := process_from n' (S i) evs in Ok (SToken k c :: r)
      | EError msg => let! r := process_from n' (S i) evs in Ok (SError msg :: r)
      end
  end.
Definition process (evs : list event) : res (list sink_call) := process_from (length evs) 0 evs.

(** ** rowan 0.13 [GreenNodeBuilder] (dependency, modelled from its source:
    start_node, token, finish_node, finish; the node cache is not observable) *)
Inductive green :=
| GNode (k : kind) (children : list green)
| GTok (k : kind) (t : text).
Record builder := Builder { b_parents : list (kind * nat); b_children : list green }.
Definition builder_new : builder := Builder [] [].
Definition b_start (b : builder) (k : kind) : builder :=
  Builder ((k, length (b_children b)) :: b_parents b) (b_children b).
Definition b_token (b : builder) (k : kind) (t : text) : builder :=
  Builder (b_parents b) (b_children b ++ [GTok k t]).
Definition b_finish (b : builder) : res builder :=
  match b_parents b with
  | [] => Panic PUnwrap
  | (k, first_child) :: ps =>
      Ok (Builder ps (firstn first_child (b_children b)
                      ++ [GNode k (skipn first_child (b_children b))]))
  end.
Definition b_done (b : builder) : res green :=
  match b_children b with
  | [GNode k cs] => Ok (GNode k cs)
  | [GTok _ _] => Panic PUnreachable
  | _ => Panic PAssert
  end.

(** ** text_tree_sink.rs *)
(** text_tree_sink.rs:24-28 [State] *)
Inductive sink_state := PendingStart | Normal | PendingFinish.

(** crates/syntax/src/syntax_error.rs [SyntaxError::new_at_offset]: a message
    and an empty range at an offset *)
Record syntax_error := SyntaxError { se_msg : text; se_pos : N }.

(** text_tree_sink.rs:15-22 [TextTreeSink]; syntax_node.rs:26-30
    [SyntaxTreeBuilder] is the pair of [sk_inner] and [sk_errors] *)
Record sink := Sink {
  sk_text_pos : N;
  sk_token_pos : nat;
  sk_state : sink_state;
  sk_inner : builder;
  sk_errors : list syntax_error
}.

Section Sink.
  Variable txt : text.              (* the field [text] *)
  Variable tokens : list token.     (* the field [tokens] *)

  (** text_tree_sink.rs:98-107 [new] *)
  Definition sink_new : sink := Sink 0 0 PendingStart builder_new [].

  Definition with_state (s : sink) (st : sink_state) : sink :=
    Sink (sk_text_pos s) (sk_token_pos s) st (sk_inner s) (sk_errors s).
  Definition with_inner (s : sink) (b : builder) : sink :=
    Sink (sk_text_pos s) (sk_token_pos s) (sk_state s) b (sk_errors s).

  (** text_tree_sink.rs:138-144 [do_token] *)
  Definition do_token (s : sink) (k : kind) (len : N) (n : nat) : res sink :=
    let! end_ := u32_add (sk_text_pos s) len in
    let! t := slice_to txt end_ in
    let! t := slice_from t (sk_text_pos s) in
    Ok (Sink end_ (sk_token_pos s + n) (sk_state s) (b_token (sk_inner s) k t) (sk_errors s)).

  (** text_tree_sink.rs:121-128 [eat_trivias]; [rest] is
      [self.tokens[self.token_pos..]] *)
  Fixpoint eat_trivias_from (rest : list token) (s : sink) : res sink :=
    match rest with
    | [] => Ok s
    | t :: rest' =>
        if is_trivia (t_kind t) then
          let! s := do_token s (t_kind t) (t_len t) 1 in eat_trivias_from rest' s
        else Ok s
    end.
  Definition eat_trivias (s : sink) : res sink :=
    eat_trivias_from (skipn (sk_token_pos s) tokens) s.

  (** text_tree_sink.rs:130-136 [eat_n_trivias] *)
  Fixpoint eat_n_trivias (n : nat) (s : sink) : res sink :=
    match n with
    | O => Ok s
    | S n' =>
        let! t := index (nth_error tokens (sk_token_pos s)) in
        let! _ := assert_ (is_trivia (t_kind t)) in
        let! s := do_token s (t_kind t) (t_len t) 1 in
        eat_n_trivias n' s
    end.

  Fixpoint count_trivias (l : list token) : nat :=
    match l with
    | [] => 0
    | t :: r => if is_trivia (t_kind t) then S (count_trivias r) else 0
    end.

  Fixpoint sum_len (l : list token) : res N :=
    match l with
    | [] => Ok 0
    | t :: r => let! n := sum_len r in u32_add (t_len t) n
    end.

  (** [match mem::replace(&mut self.state, State::Normal) ...] of lines 32-36 and 57-58 *)
  Definition flush (s : sink) : res sink :=
    match sk_state s with
    | PendingFinish =>
        let! b := b_finish (sk_inner s) in Ok (with_state (with_inner s b) Normal)
    | _ => Ok (with_state s Normal)
    end.

  (** text_tree_sink.rs:31-47 [token] *)
  Definition sink_token (s : sink) (k : kind) (n : nat) : res sink :=
    match sk_state s with
    | PendingStart => Panic PUnreachable
    | _ =>
        let! s := flush s in
        let! s := (if Nat.eqb (sk_token_pos s) 0 then Ok s else eat_trivias s) in
        let! _ := (if Nat.leb (sk_token_pos s + n) (length tokens) then Ok tt else Panic PIndex) in
        let! len := sum_len (firstn n (skipn (sk_token_pos s) tokens)) in
        do_token s k len n
    end.

  (** text_tree_sink.rs:49-82 [start_node] *)
  Definition sink_start_node (s : sink) (k : kind) : res sink :=
    match sk_state s with
    | PendingStart => Ok (with_state (with_inner s (b_start (sk_inner s) k)) Normal)
    | _ =>
        let! s := flush s in
        let! _ := (if Nat.leb (sk_token_pos s) (length tokens) then Ok tt else Panic PIndex) in
        let! s := eat_n_trivias (count_trivias (skipn (sk_token_pos s) tokens)) s in
        Ok (with_inner s (b_start (sk_inner s) k))
    end.

  (** text_tree_sink.rs:84-90 [finish_node] *)
  Definition sink_finish_node (s : sink) : res sink :=
    match sk_state s with
    | PendingStart => Panic PUnreachable
    | PendingFinish =>
        let! b := b_finish (sk_inner s) in Ok (with_state (with_inner s b) PendingFinish)
    | Normal => Ok (with_state s PendingFinish)
    end.

  (** text_tree_sink.rs:92-94 [error]; syntax_node.rs:61-63 *)
  Definition sink_error (s : sink) (msg : text) : sink :=
    Sink (sk_text_pos s) (sk_token_pos s) (sk_state s) (sk_inner s)
         (sk_errors s ++ [SyntaxError msg (sk_text_pos s)]).

  Definition sink_call1 (s : sink) (c : sink_call) : res sink :=
    match c with
    | SStart k => sink_start_node s k
    | SFinish => sink_finish_node s
    | SToken k n => sink_token s k n
    | SError msg => Ok (sink_error s msg)
    end.
  Fixpoint sink_run (s : sink) (cs : list sink_call) : res sink :=
    match cs with
    | [] => Ok s
    | c :: r => let! s := sink_call1 s c in sink_run s r
    end.

  (** text_tree_sink.rs:109-119 [finish]; syntax_node.rs:33-36 [finish_raw] *)
  Definition sink_finish (s : sink) : res (green * list syntax_error) :=
    match sk_state s with
    | PendingFinish =>
        let! s := eat_trivias (with_state s Normal) in
        let! b := b_finish (sk_inner s) in
        let! g := b_done b in
        Ok (g, sk_errors s)
    | _ => Panic PUnreachable
    end.
End Sink.

(** crates/syntax/src/parsing.rs:8-22 [parse_text]; the sink runs after the
    parser has returned, and its calls are made as [process] goes (the model
    computes the calls first: only which of two panics comes first differs) *)
Definition parse_text (t : text) : res (green * list syntax_error) :=
  let! lx := lexer_new t in
  let! (events, tokens) := parse_with_lexer lx in
  let! calls := process events in
  let! s := sink_run t tokens sink_new calls in
  sink_finish t tokens s.

(** crates/syntax/src/lib.rs:117-130 [SourceFile::parse] *)
Definition source_file_parse (t : text) : res (green * list syntax_error) :=
  let! (g, errs) := parse_text t in
  let! _ := assert_ (match g with GNode k _ => kind_eqb k SOURCE_FILE | GTok k _ => kind_eqb k SOURCE_FILE end) in
  Ok (g, errs).
