(** What the typed tree made from a grammar should offer, said without the generator:
    what a rule mentions, which rules can be handled, and which trees fit a rule. *)
From Coq Require Import String.
From Verif Require Import Base Kinds Stdx Sink Ast Generator.
Open Scope N_scope.

(** ** Rules *)
(** [T (',' T)* ','?], with any separator *)
Definition list_of (n : text) (rs : list rule) : Prop :=
  exists c, rs = [NodeR n; RepR (SeqR [c; NodeR n]); OptR c].
(** a definition that is only a choice of nodes (a lone ';' is passed over) is an enum *)
Definition is_choice (r : rule) (variants : list text) : Prop :=
  exists alts, r = AltR alts
    /\ Forall (fun x => x = TokenR (`";") \/ exists n, x = NodeR n) alts
    /\ variants = flat_map (fun x => match x with NodeR n => [n] | _ => [] end) alts.

(** A rule can be handled when labels are not nested and not put on tokens, and only
    nodes are repeated, alone or as a list with separators. *)
Inductive lawful : bool -> rule -> Prop :=
| L_node b n : lawful b (NodeR n)
| L_token t : lawful false (TokenR t)
| L_rep b n : lawful b (RepR (NodeR n))
| L_list b n rs : list_of n rs -> lawful b (SeqR rs)
| L_label l r : lawful true r -> lawful false (Labeled l r)
| L_seq b rs : (forall r, In r rs -> lawful b r) -> lawful b (SeqR rs)
| L_alt b rs : (forall r, In r rs -> lawful b r) -> lawful b (AltR rs)
| L_opt b r : lawful b r -> lawful b (OptR r).

(** The part a rule mentions: a node under its label, or under its name in snake case
    (with an "s" when there may be many); a token, except the tokens of literals. *)
Definition called (label : option text) (default : text) : text := or_label label default.
Definition literal_token (t : text) : Prop := In t [`"integer_number"; `"hex_string"; `"byte_string"].
(** the fields of a token: brackets are quoted *)
Definition token_field (t : text) : field :=
  FToken (if mem t [`"("; `")"; `"{"; `"}"; `"["; `"]"] then [39] ++ t ++ [39] else t).
Section Mentions.
  (** how a token is written as a field *)
  Context (tf : text -> field).
  Inductive mentions_ : option text -> rule -> field -> Prop :=
  | M_node l n : mentions_ l (NodeR n) (FNode (called l (to_lower_snake_case n)) n false)
  | M_token l t : ~ literal_token t -> mentions_ l (TokenR t) (tf t)
  | M_rep l n : mentions_ l (RepR (NodeR n)) (FNode (called l (to_lower_snake_case n ++ `"s")) n true)
  | M_list l n rs : list_of n rs -> mentions_ l (SeqR rs) (FNode (called l (to_lower_snake_case n ++ `"s")) n true)
  | M_label l r f : mentions_ (Some l) r f -> mentions_ None (Labeled l r) f
  | M_seq l rs r f : (forall n, ~ list_of n rs) -> In r rs -> mentions_ l r f -> mentions_ l (SeqR rs) f
  | M_alt l rs r f : In r rs -> mentions_ l r f -> mentions_ l (AltR rs) f
  | M_opt l r f : mentions_ l r f -> mentions_ l (OptR r) f.
End Mentions.
Definition mentions := mentions_ token_field None.
(** What every text of the rule must contain. *)
Inductive requires_ : option text -> rule -> field -> Prop :=
| Q_node l n : requires_ l (NodeR n) (FNode (called l (to_lower_snake_case n)) n false)
| Q_token l t : ~ literal_token t -> requires_ l (TokenR t) (token_field t)
| Q_list l n rs : list_of n rs -> requires_ l (SeqR rs) (FNode (called l (to_lower_snake_case n ++ `"s")) n true)
| Q_label l r f : requires_ (Some l) r f -> requires_ None (Labeled l r) f
| Q_seq l rs r f : (forall n, ~ list_of n rs) -> In r rs -> requires_ l r f -> requires_ l (SeqR rs) f
| Q_alt l rs f : rs <> [] -> (forall r, In r rs -> requires_ l r f) -> requires_ l (AltR rs) f.
Definition requires := requires_ None.

(** the names that occur in a rule *)
Inductive occurs_node : rule -> text -> Prop :=
| ON_node n : occurs_node (NodeR n) n
| ON_label l r n : occurs_node r n -> occurs_node (Labeled l r) n
| ON_seq rs r n : In r rs -> occurs_node r n -> occurs_node (SeqR rs) n
| ON_alt rs r n : In r rs -> occurs_node r n -> occurs_node (AltR rs) n
| ON_opt r n : occurs_node r n -> occurs_node (OptR r) n
| ON_rep r n : occurs_node r n -> occurs_node (RepR r) n.
Inductive occurs_token : rule -> text -> Prop :=
| OT_token t : occurs_token (TokenR t) t
| OT_label l r t : occurs_token r t -> occurs_token (Labeled l r) t
| OT_seq rs r t : In r rs -> occurs_token r t -> occurs_token (SeqR rs) t
| OT_alt rs r t : In r rs -> occurs_token r t -> occurs_token (AltR rs) t
| OT_opt r t : occurs_token r t -> occurs_token (OptR r) t
| OT_rep r t : occurs_token r t -> occurs_token (RepR r) t.
Inductive occurs_label : rule -> text -> Prop :=
| OL_here l r : occurs_label (Labeled l r) l
| OL_label l l' r : occurs_label r l -> occurs_label (Labeled l' r) l
| OL_seq rs r l : In r rs -> occurs_label r l -> occurs_label (SeqR rs) l
| OL_alt rs r l : In r rs -> occurs_label r l -> occurs_label (AltR rs) l
| OL_opt r l : occurs_label r l -> occurs_label (OptR r) l
| OL_rep r l : occurs_label r l -> occurs_label (RepR r) l.

(** ** Grammars *)
Definition letter (c : char) : Prop := 65 <= c <= 90 \/ 97 <= c <= 122 \/ c = 95.
Definition digit (c : char) : Prop := 48 <= c <= 57.
Definition identifier (t : text) : Prop :=
  exists c r, t = c :: r /\ letter c /\ Forall (fun c => letter c \/ digit c) r.
(** what the parser of grammars guarantees: each node is defined once, and names and labels
    are identifiers; and no quotation mark in a token, no node with a name the generator
    treats specially. *)
Record proper (G : grammar) : Prop := {
  p_once : NoDup (map fst G);
  p_names : forall n r, In (n, r) G -> identifier n;
  p_nodes : forall n r m, In (n, r) G -> occurs_node r m -> In m (map fst G);
  p_labels : forall n r l, In (n, r) G -> occurs_label r l -> identifier l;
  p_tokens : forall n r t, In (n, r) G -> occurs_token r t -> ~ In 39 t;
  p_special : ~ In (`"SyntaxToken") (map fst G) /\ ~ In (`"Stmt") (map fst G) }.
Definition struct_of (G : grammar) (n : text) (r : rule) : Prop :=
  In (n, r) G /\ forall vs, ~ is_choice r vs.
Definition enum_of (G : grammar) (n : text) (vs : list text) : Prop :=
  exists r, In (n, r) G /\ is_choice r vs.
(** a token gets an accessor when it is punctuation known to the lexer or reads like a name *)
Definition nameable (t : text) : Prop := In t (map fst (ks_punct KINDS_SRC)) \/ identifier t.
(** the grammars a typed tree can be made from *)
Record acceptable (G : grammar) : Prop := {
  ac_rules : forall n r, struct_of G n r -> lawful false r;
  ac_tokens : forall n r t, struct_of G n r -> mentions r (token_field t) -> ~ In 39 t -> nameable t;
  ac_variants : forall n vs v, enum_of G n vs -> In v vs -> exists r, struct_of G v r }.

(** ** Trees *)
(** [c] is a node of type [n]: of the kind of the struct, or of one of the enum's structs *)
Definition of_type (G : grammar) (n : text) (c : green) : Prop :=
  is_node c = true
  /\ ((exists r, struct_of G n r /\ kind_name (gkind c) = to_upper_snake_case n)
      \/ exists vs v, enum_of G n vs /\ In v vs /\ kind_name (gkind c) = to_upper_snake_case v).
(** [c] is the token written [t] in a grammar *)
Definition is_token (t : text) (c : green) : Prop :=
  is_node c = false
  /\ (In (t, kind_name (gkind c)) (ks_punct KINDS_SRC)
      \/ (In t (ks_keywords KINDS_SRC) /\ kind_name (gkind c) = to_upper_snake_case t ++ `"_KW")
      \/ (t = `"ident" /\ kind_name (gkind c) = `"IDENT")
      \/ (literal_token t /\ kind_name (gkind c) = to_upper_snake_case t)).
(** the children [cs] fit the rule *)
Inductive fits (G : grammar) : rule -> list green -> Prop :=
| F_node n c : of_type G n c -> fits G (NodeR n) [c]
| F_token t c : is_token t c -> fits G (TokenR t) [c]
| F_label l r cs : fits G r cs -> fits G (Labeled l r) cs
| F_seq rs cs : fits_seq G rs cs -> fits G (SeqR rs) cs
| F_alt rs r cs : In r rs -> fits G r cs -> fits G (AltR rs) cs
| F_opt_no r : fits G (OptR r) []
| F_opt r cs : fits G r cs -> fits G (OptR r) cs
| F_rep_no r : fits G (RepR r) []
| F_rep r a b : fits G r a -> fits G (RepR r) b -> fits G (RepR r) (a ++ b)
with fits_seq (G : grammar) : list rule -> list green -> Prop :=
| FS_nil : fits_seq G [] []
| FS_cons r rs a b : fits G r a -> fits_seq G rs b -> fits_seq G (r :: rs) (a ++ b).
(** spaces and comments may stand between the children of a node *)
Definition significant (c : green) : bool := is_node c || negb (is_trivia (gkind c)).
Definition tree_of (G : grammar) (r : rule) (g : green) : Prop :=
  fits G r (filter significant (gchildren g)).

(** children that no accessor is meant for: the tokens of literals and the separators of lists *)
Inductive passed_over (G : grammar) : rule -> green -> Prop :=
| P_literal t c : literal_token t -> is_token t c -> passed_over G (TokenR t) c
| P_separator n s cs c : fits G s cs -> In c cs -> passed_over G (SeqR [NodeR n; RepR (SeqR [s; NodeR n]); OptR s]) c
| P_label l r c : passed_over G r c -> passed_over G (Labeled l r) c
| P_seq rs r c : In r rs -> passed_over G r c -> passed_over G (SeqR rs) c
| P_alt rs r c : In r rs -> passed_over G r c -> passed_over G (AltR rs) c
| P_opt r c : passed_over G r c -> passed_over G (OptR r) c.

(** the type a field asks for *)
Definition wanted (G : grammar) (f : field) (c : green) : Prop :=
  match f with
  | FNode _ ty _ => of_type G ty c
  | FToken _ => exists t, f = token_field t /\ is_token t c
  end.
(** [c] is returned, or stands behind a sibling that is returned because it is of the same
    type and comes first *)
Definition returned_or_hidden (G : grammar) (returned : list green) (f : field) (g c : green) : Prop :=
  In c returned
  \/ exists before first between after,
       gchildren g = before ++ first :: between ++ c :: after /\ returned = [first]
       /\ wanted G f first /\ wanted G f c.

(** a field gives way to the accessor of an enum that its type is a variant of *)
Definition stands_for (G : grammar) (f f' : field) : Prop :=
  f' = f \/ exists n ty b E vs, f = FNode n ty b /\ enum_of G E vs /\ In ty vs /\ f' = FNode (to_lower_snake_case E) E false.
(** the accessor belongs to one of the traits noted for the struct *)
Definition dropped (X : gnode) (f : field) : Prop :=
  exists t ms m, In (t, ms) owner_traits /\ In t (gn_traits X) /\ method_name f = Ok m /\ In m ms.
