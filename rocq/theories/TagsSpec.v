(** What a text with tags, and a text with annotations, stand for. *)
From Verif Require Import Base Lexer Stdx StdxSpec Tags.
Open Scope N_scope.

(** ** Tags *)
(** A document: a text, in which parts are enclosed in tags and carry an attribute text. *)
Inductive doc :=
| Plain (t : text)
| Tagged (before attr : text) (inside after : doc).
(** How it is written ... *)
Fixpoint written (tag : text) (d : doc) : text :=
  match d with
  | Plain t => t
  | Tagged before attr inside after =>
      before ++ ([60] ++ tag ++ attr ++ [62]) ++ written tag inside ++ ([60; 47] ++ tag ++ [62]) ++ written tag after
  end.
(** ... and what it is without the tags. *)
Fixpoint shown (d : doc) : text :=
  match d with
  | Plain t => t
  | Tagged before _ inside after => before ++ shown inside ++ shown after
  end.
(** A tag's name is not empty, does not start with a slash and has no angle brackets. *)
Definition tag_name (tag : text) : Prop :=
  ~ In 60 tag /\ ~ In 62 tag /\ match tag with [] => False | c :: _ => c <> 47 end.
(** The texts between the tags contain no tags, attributes do not contain '>'. *)
Fixpoint proper (tag : text) (d : doc) : Prop :=
  let free t := ~ occurs ([60] ++ tag) t /\ ~ occurs ([60; 47] ++ tag ++ [62]) t in
  match d with
  | Plain t => free t
  | Tagged before attr inside after => free before /\ ~ In 62 attr /\ proper tag inside /\ proper tag after
  end.
(** [v] is [t] without the blanks at its two ends. *)
Definition trimmed (t v : text) : Prop :=
  exists a b, t = a ++ v ++ b /\ blank a /\ blank b /\
    (forall c r, v = c :: r -> Lexer.is_white_space c = false) /\ (forall c r, v = r ++ [c] -> Lexer.is_white_space c = false).
(** The value of an attribute text: none if it is blank. *)
Definition attr_value (attr : text) (v : option text) : Prop :=
  match v with None => blank attr | Some v => v <> [] /\ trimmed attr v end.
(** The tagged parts in the order of their closing tags: where they lie in the
    text without tags, if the document starts at [o]. *)
Inductive parts : N -> doc -> list (N * N * option text) -> Prop :=
| parts_plain o t : parts o (Plain t) []
| parts_tagged o before attr inside after v l1 l2 :
    attr_value attr v ->
    parts (o + tlen before) inside l1 ->
    parts (o + tlen before + tlen (shown inside)) after l2 ->
    parts o (Tagged before attr inside after)
      (l1 ++ [(o + tlen before, o + tlen before + tlen (shown inside), v)] ++ l2).
(** The text of a tagged part somewhere in the document, what precedes it and what follows it. *)
Inductive part_of : doc -> text -> text -> text -> option text -> Prop :=
| part_here before attr inside after v : attr_value attr v ->
    part_of (Tagged before attr inside after) before (shown inside) (shown after) v
| part_inside before attr inside after a w c v : part_of inside a w c v ->
    part_of (Tagged before attr inside after) (before ++ a) w (c ++ shown after) v
| part_after before attr inside after a w c v : part_of after a w c v ->
    part_of (Tagged before attr inside after) (before ++ shown inside ++ a) w c v.
Definition same_range (s e : N) (m : N * N * option text) : bool := (fst (fst m) =? s) && (snd (fst m) =? e).
(** Ordered by start, then by end. *)
Definition before_or_at (a b : N * N * option text) : Prop :=
  fst (fst a) < fst (fst b) \/ fst (fst a) = fst (fst b) /\ snd (fst a) <= snd (fst b).

(** ** Annotations *)
(** A line with a comment: the code before the first [//] and the text after it. *)
Definition commented (line code comment : text) : Prop :=
  line = code ++ slashes ++ comment /\ ~ occurs slashes (code ++ [47]).
(** The runs of carets in a comment: first and last column, and the text up to the next run. *)
Inductive runs : N -> text -> list (N * N * text) -> Prop :=
| runs_none o t : ~ In cCaret t -> runs o t []
| runs_one o lead n content rest l :
    ~ In cCaret lead -> (0 < n)%nat -> ~ In cCaret content ->
    rest = [] \/ (content <> [] /\ exists r, rest = cCaret :: r) ->
    runs (o + tlen lead + N.of_nat n + tlen content) rest l ->
    runs o (lead ++ repeat cCaret n ++ content ++ rest)
      ((o + tlen lead, o + tlen lead + N.of_nat n, content) :: l).
(** The bars in a comment: the column after each, and the text up to the next one. *)
Inductive bars : N -> text -> list (N * text) -> Prop :=
| bars_none o t : ~ In cBar t -> bars o t []
| bars_one o lead content rest l :
    ~ In cBar lead -> ~ In cBar content -> rest = [] \/ (exists r, rest = cBar :: r) ->
    bars (o + tlen lead + 1 + tlen content) rest l ->
    bars o (lead ++ [cBar] ++ content ++ rest) ((o + tlen lead + 1, content) :: l).
(** Earlier lines, the last one first: where each starts and how long its code is. *)
Definition earlier := list (N * N).
(** The last earlier line with at least [e] bytes of code starts at [s]. *)
Definition last_long_enough (ls : earlier) (e s : N) : Prop :=
  exists newer len older, ls = newer ++ (s, len) :: older /\ e <= len /\ Forall (fun l => snd l < e) newer.
(** A note: the text of the annotation, and the range it is about. *)
Inductive note (size : N) (ls : earlier) : N * N * text -> N * N * text -> Prop :=
| note_file s e content v : trimmed content v -> note size ls (s, e, file_word ++ content) (0, size, v)
| note_range s e content v at_ : (forall c, content <> file_word ++ c) -> trimmed content v ->
    last_long_enough ls e at_ -> note size ls (s, e, content) (s + at_, e + at_, v).
(** The text of the bars under column [e] is added to a note, each as a line. *)
Inductive extended : list (N * text) -> N -> text -> text -> Prop :=
| extended_nil e v : extended [] e v v
| extended_here l e v c w v' : trimmed c w -> extended l e (v ++ [cLF] ++ w ++ [cLF]) v' -> extended ((e, c) :: l) e v v'
| extended_other l e e' v c v' : e' <> e -> extended l e v v' -> extended ((e', c) :: l) e v v'.
(** The bars of the first line of [ls], if it has any and no carets. *)
Definition next_bars (ls : list text) (bs : list (N * text)) : Prop :=
  match ls with
  | [] => bs = []
  | l :: _ =>
      (exists code comment, commented l code comment /\ ~ In cCaret comment /\ bars (tlen code + 2) comment bs) \/
      (bs = [] /\ (~ occurs slashes l \/ exists code comment, commented l code comment /\ In cCaret comment))
  end.
(** The annotations of the lines [ls] of a text of [size] bytes, if they start
    at [start], come after [done] and [ends] are the last columns of the
    annotations on the line before. *)
Inductive annotated (size : N) : list text -> N -> earlier -> list N -> list (N * N * text) -> Prop :=
| annotated_nil start done ends : annotated size [] start done ends []
| annotated_code l ls start done ends r :
    ~ occurs slashes l ->
    annotated size ls (start + tlen l) ((start, tlen l) :: done) [] r ->
    annotated size (l :: ls) start done ends r
| annotated_carets l ls start done ends r code comment rs bs own :
    commented l code comment -> In cCaret comment ->
    runs (tlen code + 2) comment rs -> next_bars ls bs ->
    Forall2 (fun c n => exists v, note size done c (fst n, v) /\ extended bs (snd (fst c)) v (snd n)) rs own ->
    annotated size ls (start + tlen l) ((start, tlen code) :: done) (map (fun c => snd (fst c)) rs) r ->
    annotated size (l :: ls) start done ends (own ++ r)
| annotated_bars l ls start done ends r code comment bs :
    commented l code comment -> ~ In cCaret comment ->
    bars (tlen code + 2) comment bs -> Forall (fun b => In (fst b) ends) bs ->
    annotated size ls (start + tlen l) ((start, tlen code) :: done) [] r ->
    annotated size (l :: ls) start done ends r.
