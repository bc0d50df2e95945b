(** What the layout of a file can tell the parser.

    Between two tokens of a file there may be blanks and comments.  The parser
    looks ahead in five places, and what it sees there depends on the layout.
    [answers] lists what it can learn: two layouts of the same tokens with the
    same answers are parsed alike. *)
From Coq Require Import String.
From Verif Require Import Base Kinds LexSpec TreeSpec Sink GreenSpec SyntaxSpec ShapeSpec.
Local Open Scope N_scope.

(** The kind of the first token that is not blank; a comment counts. *)
Fixpoint next_seen (r : list (kind * text)) : kind :=
  match r with
  | [] => EOF
  | p :: r => if kind_eqb (fst p) WHITESPACE then next_seen r else fst p
  end.
(** The kind of the second token; blanks and comments count. *)
Definition second_raw (r : list (kind * text)) : kind :=
  match r with _ :: p :: _ => fst p | _ => EOF end.

(** The answers at the token [p] that follows the token of kind [before] and
    precedes [r]: after a name, is the next thing a brace?  After a name or a
    number, is it a colon?  After the token that follows [module], is it "::"?
    After "::", is the token after the next one a star or a brace? *)
Definition answer (before : kind) (p : kind * text) (r : list (kind * text)) : bool * bool * bool * bool :=
  (kind_eqb (fst p) IDENT && kind_eqb (next_seen r) L_BRACE,
   (kind_eqb (fst p) IDENT || kind_eqb (fst p) INTEGER_NUMBER) && kind_eqb (next_seen r) COLON,
   kind_eqb before MODULE_KW && kind_eqb (next_seen r) COLON_COLON,
   kind_eqb (fst p) COLON_COLON && (kind_eqb (second_raw r) STAR || kind_eqb (second_raw r) L_BRACE)).
(** [before] is the kind of the token before [ws], TOMBSTONE at the start. *)
Fixpoint answers (before : kind) (ws : list (kind * text)) : list (bool * bool * bool * bool) :=
  match ws with
  | [] => []
  | p :: r => if is_trivia (fst p) then answers before r else answer before p r :: answers (fst p) r
  end.

(** Both files begin with a token, or both with a blank, or both with a comment. *)
Definition first_kind (ws : list (kind * text)) : kind := match ws with [] => EOF | p :: _ => fst p end.
Definition begin_alike (ws ws' : list (kind * text)) : Prop :=
  is_trivia (first_kind ws) = true \/ is_trivia (first_kind ws') = true -> first_kind ws = first_kind ws'.

(** The same tree apart from blanks and comments, and the same messages, each
    after the same number of tokens. *)
Definition same_place (ws ws' : list (kind * text)) (e e' : syntax_error) : Prop :=
  se_msg e = se_msg e' /\
  exists i i', (i <= length ws)%nat /\ (i' <= length ws')%nat /\
    se_pos e = token_start ws i /\ se_pos e' = token_start ws' i' /\
    length (proper (firstn i ws)) = length (proper (firstn i' ws')).
Definition same_reading (ws ws' : list (kind * text)) (r r' : res (green * list syntax_error)) : Prop :=
  match r, r' with
  | Ok (g, errs), Ok (g', errs') => strip g = strip g' /\ Forall2 (same_place ws ws') errs errs'
  | Panic w, Panic w' => w = w'
  | _, _ => False
  end.

(** ** Layouts with nothing to trip over *)
(** A comment before the brace, colon or "::" after a name, a number or the
    token after [module]. *)
Definition comment_before_mark (ws : list (kind * text)) : Prop :=
  exists a p b q c, ws = a ++ p :: b ++ q :: c /\
    is_trivia (fst p) = false /\ Forall (fun x => is_trivia (fst x) = true) b /\ Exists (fun x => fst x = COMMENT) b /\
    ((fst p = IDENT \/ fst p = INTEGER_NUMBER) /\ (fst q = L_BRACE \/ fst q = COLON) \/
     (exists w a', proper a = a' ++ [(MODULE_KW, w)]) /\ fst q = COLON_COLON).
(** A star or brace right after the token (or the blanks) after "::". *)
Definition mark_after_qualifier (ws : list (kind * text)) : Prop :=
  exists a p q r b, ws = a ++ p :: q :: r :: b /\ fst p = COLON_COLON /\ (fst r = STAR \/ fst r = L_BRACE).
