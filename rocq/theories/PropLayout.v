(** C49, for any file: what the layout of a file can change. *)
From Coq Require Import String.
From Verif Require Import Base BaseProofs Kinds KindsProofs LexSpec Lexer LexerProofs Sink TreeSpec GreenSpec SyntaxSpec ShapeSpec
  ShapeProofs LayoutSpec LayoutProofs PropLexer PropSyntax PropShape.
Local Open Scope N_scope.

(** Two layouts of the same tokens that answer the parser's questions alike
    are read alike, whether the file is a program or not: the same panic, or
    the same tree and the same messages at the same places. *)
Theorem C49_same_answers_same_reading_partial : forall t t' ws ws',
  tlen t < u32_bound -> tlen t' < u32_bound ->
  token_stream t ws -> token_stream t' ws' -> ascii_literals ws -> ascii_literals ws' ->
  Forall2 alike (proper ws) (proper ws') -> begin_alike ws ws' ->
  answers TOMBSTONE ws = answers TOMBSTONE ws' ->
  same_reading ws ws' (parse_text t) (parse_text t').
Proof. intros; apply layout_main; assumption. Qed.

(** ** Careful layouts *)
(** what a parser that skips blanks and comments would be told *)
Fixpoint plain (before : kind) (ps : list (kind * text)) : list (bool * bool * bool * bool) :=
  match ps with
  | [] => []
  | p :: r => (kind_eqb (fst p) IDENT && kind_eqb (first_kind r) L_BRACE,
               (kind_eqb (fst p) IDENT || kind_eqb (fst p) INTEGER_NUMBER) && kind_eqb (first_kind r) COLON,
               kind_eqb before MODULE_KW && kind_eqb (first_kind r) COLON_COLON, false) :: plain (fst p) r
  end.
Lemma plain_alike ps ps' : Forall2 alike ps ps' -> forall b, plain b ps = plain b ps'.
Proof.
  induction 1 as [|p q r r' [E _] F IH]; intros b; [reflexivity|]. cbn [plain]. rewrite <- E, (IH (fst p)).
  replace (first_kind r') with (first_kind r); [reflexivity|]. destruct F as [|? ? ? ? [E' _] _]; [reflexivity|exact E'].
Qed.

Definition trivial (x : kind * text) : Prop := is_trivia (fst x) = true.
Lemma gap r : exists b rest, r = b ++ rest /\ Forall trivial b /\ is_trivia (first_kind rest) = false.
Proof.
  induction r as [|p r (b & rest & -> & F & H)]; [exists [], []; repeat split; constructor|].
  destruct (is_trivia (fst p)) eqn:T.
  - exists (p :: b), rest. split; [reflexivity|]. split; [constructor; assumption|exact H].
  - exists [], (p :: b ++ rest). split; [reflexivity|]. split; [constructor|exact T].
Qed.
Lemma seen_gap b rest : Forall trivial b -> is_trivia (first_kind rest) = false ->
  Exists (fun x => fst x = COMMENT) b /\ next_seen (b ++ rest) = COMMENT \/ next_seen (b ++ rest) = first_kind rest.
Proof.
  intros F H. induction F as [|p b T _ IH].
  - right. destruct rest as [|p rest]; [reflexivity|]. cbn [app next_seen first_kind] in *.
    destruct (kind_eqb (fst p) WHITESPACE) eqn:K; [|reflexivity]. unfold is_trivia in H. rewrite K in H. discriminate.
  - cbn [app next_seen]. unfold trivial, is_trivia in T. destruct (kind_eqb (fst p) WHITESPACE) eqn:K.
    + destruct IH as [[E X]|X]; [left|right]; auto.
    + cbn [orb] in T. apply kind_eqb_eq in T. left. rewrite T. split; [constructor; exact T|reflexivity].
Qed.
Lemma proper_gap b rest : Forall trivial b -> proper (b ++ rest) = proper rest.
Proof. induction 1 as [|p b T _ IH]; [reflexivity|]. cbn [app proper filter]. rewrite T. exact IH. Qed.
Lemma proper_first rest : is_trivia (first_kind rest) = false -> first_kind (proper rest) = first_kind rest.
Proof. destruct rest as [|p r]; [reflexivity|]. cbn [first_kind proper filter]. intros ->. reflexivity. Qed.

Lemma careful_answers ws : ~ comment_before_mark ws -> ~ mark_after_qualifier ws ->
  forall r a before, ws = a ++ r -> (before = MODULE_KW -> exists w a', proper a = a' ++ [(MODULE_KW, w)]) ->
  answers before r = plain before (proper r).
Proof.
  intros NC NM. induction r as [|p r IH]; intros a before E B; [reflexivity|].
  cbn [answers proper filter]. destruct (is_trivia (fst p)) eqn:T; cbn [negb].
  - apply (IH (a ++ [p])); [rewrite <- app_assoc; exact E|]. intros X. destruct (B X) as (w & a' & Ea). exists w, a'.
    unfold proper in *. rewrite filter_app, Ea. cbn [filter]. rewrite T. cbn [negb]. rewrite app_nil_r. reflexivity.
  - fold (proper r). cbn [plain]. f_equal.
    + destruct (gap r) as (b & rest & -> & F & H). unfold answer. rewrite (proper_gap _ _ F), (proper_first _ H).
      assert (Q : forall m, (m = L_BRACE /\ fst p = IDENT) \/ (m = COLON /\ (fst p = IDENT \/ fst p = INTEGER_NUMBER)) \/ (m = COLON_COLON /\ before = MODULE_KW) ->
        kind_eqb (next_seen (b ++ rest)) m = kind_eqb (first_kind rest) m).
      { intros m Hm. destruct (seen_gap _ _ F H) as [[C ->]| ->]; [|reflexivity].
        destruct (kind_eqb (first_kind rest) m) eqn:K.
        - exfalso. apply kind_eqb_eq in K. destruct rest as [|q c]; cbn [first_kind] in K; [destruct Hm as [[-> _]|[[-> _]|[-> _]]]; discriminate K|].
          apply NC. exists a, p, b, q, c. split; [exact E|]. split; [exact T|]. split; [exact F|]. split; [exact C|].
          destruct Hm as [[-> P]|[[-> P]|[-> P]]]; [left; auto|left; auto|right; auto].
        - destruct Hm as [[-> _]|[[-> _]|[-> _]]]; reflexivity. }
      assert (Q4 : kind_eqb (fst p) COLON_COLON && (kind_eqb (second_raw (b ++ rest)) STAR || kind_eqb (second_raw (b ++ rest)) L_BRACE) = false).
      { destruct (kind_eqb (fst p) COLON_COLON) eqn:K; [|reflexivity]. apply kind_eqb_eq in K. cbn [andb].
        destruct (b ++ rest) as [|q [|x c]] eqn:Er; [reflexivity..|]. cbn [second_raw].
        destruct (kind_eqb (fst x) STAR || kind_eqb (fst x) L_BRACE) eqn:X; [|reflexivity]. exfalso. apply NM.
        exists a, p, q, x, c. split; [exact E|]. split; [exact K|].
        apply orb_true_iff in X as [X|X]; apply kind_eqb_eq in X; auto. }
      rewrite Q4. f_equal. f_equal; [f_equal|].
      * destruct (kind_eqb (fst p) IDENT) eqn:K; [|reflexivity]. apply kind_eqb_eq in K. rewrite (Q L_BRACE); auto.
      * destruct (kind_eqb (fst p) IDENT || kind_eqb (fst p) INTEGER_NUMBER) eqn:K; [|reflexivity].
        rewrite (Q COLON); [reflexivity|]. right; left. split; [reflexivity|].
        apply orb_true_iff in K as [K|K]; apply kind_eqb_eq in K; auto.
      * destruct (kind_eqb before MODULE_KW) eqn:K; [|reflexivity]. apply kind_eqb_eq in K. rewrite (Q COLON_COLON); auto.
    + apply (IH (a ++ [p])); [rewrite <- app_assoc; exact E|]. intros X. exists (snd p), (proper a).
      unfold proper. rewrite filter_app. cbn [filter]. rewrite T. cbn [negb]. destruct p as [k w]. cbn [fst snd] in *. subst k. reflexivity.
Qed.

(** If no comment stands before the brace, colon or "::" after a name, number
    or module address, and no star or brace follows the token after "::"
    directly, blanks and comments do not matter, whatever the tokens are. *)
Theorem C49_careful_layouts_partial : forall t t' ws ws',
  tlen t < u32_bound -> tlen t' < u32_bound ->
  token_stream t ws -> token_stream t' ws' -> ascii_literals ws -> ascii_literals ws' ->
  Forall2 alike (proper ws) (proper ws') -> begin_alike ws ws' ->
  ~ comment_before_mark ws -> ~ comment_before_mark ws' -> ~ mark_after_qualifier ws -> ~ mark_after_qualifier ws' ->
  same_reading ws ws' (parse_text t) (parse_text t').
Proof.
  intros t t' ws ws' L L' S S' A A' P B C C' M M'. apply layout_main; auto.
  rewrite (careful_answers ws C M ws []), (careful_answers ws' C' M' ws' []); try reflexivity; try discriminate.
  apply plain_alike, P.
Qed.

(** ** The hypotheses are met *)
Fixpoint comment_next (r : list (kind * text)) : bool :=
  match r with p :: r => is_trivia (fst p) && (kind_eqb (fst p) COMMENT || comment_next r) | [] => false end.
Fixpoint commented (before : kind) (ws : list (kind * text)) : bool :=
  match ws with
  | [] => false
  | p :: r => if is_trivia (fst p) then commented before r
              else comment_next r &&
                   ((kind_eqb (fst p) IDENT || kind_eqb (fst p) INTEGER_NUMBER) && (kind_eqb (first_kind (proper r)) L_BRACE || kind_eqb (first_kind (proper r)) COLON)
                    || kind_eqb before MODULE_KW && kind_eqb (first_kind (proper r)) COLON_COLON)
                   || commented (fst p) r
  end.
Definition last_kind (before : kind) (a : list (kind * text)) : kind := last (map fst (proper a)) before.
Lemma commented_app a : forall before r, commented (last_kind before a) r = true -> commented before (a ++ r) = true.
Proof.
  induction a as [|p a IH]; intros before r H; [exact H|]. cbn [app commented]. unfold last_kind in H. cbn [proper filter] in H.
  destruct (is_trivia (fst p)); cbn [negb] in H; [apply IH; exact H|]. rewrite (IH (fst p)); [apply orb_true_r|].
  unfold last_kind. fold (proper a) in H. cbn [map] in H. destruct (map fst (proper a)) eqn:E; [exact H|].
  rewrite <- H. f_equal. clear. revert k. induction l as [|x l IH]; intros k; [reflexivity|]. cbn [last] in *. apply (IH x).
Qed.
Lemma commented_ok ws : commented TOMBSTONE ws = false -> ~ comment_before_mark ws.
Proof.
  intros N (a & p & b & q & c & -> & T & F & C & H). rewrite (commented_app a) in N; [discriminate|].
  cbn [commented]. rewrite T. apply orb_true_iff. left.
  assert (X : comment_next (b ++ q :: c) = true).
  { clear - F C. induction C as [x b E|x b _ IH]; inversion F; subst; cbn [app comment_next].
    - rewrite E. reflexivity.
    - match goal with H : is_trivia (fst x) = true |- _ => rewrite H end. rewrite (IH ltac:(assumption)). apply orb_true_r. }
  rewrite X. rewrite (proper_gap b (q :: c) F).
  assert (Y : first_kind (proper (q :: c)) = fst q).
  { cbn [proper filter]. replace (is_trivia (fst q)) with false; [reflexivity|]. destruct H as [[_ [->| ->]]|[_ ->]]; reflexivity. }
  rewrite Y. destruct H as [[P Q]|[(w & a' & E) Q]].
  - apply orb_true_iff. left. apply andb_true_iff. split; apply orb_true_iff; [destruct P as [->| ->]; auto|destruct Q as [->| ->]; auto].
  - apply orb_true_iff. right. rewrite Q. unfold last_kind. rewrite E, map_app. cbn [map fst].
    rewrite last_last. reflexivity.
Qed.
Fixpoint marked (ws : list (kind * text)) : bool :=
  match ws with
  | p :: r => kind_eqb (fst p) COLON_COLON && (kind_eqb (second_raw r) STAR || kind_eqb (second_raw r) L_BRACE) || marked r
  | [] => false
  end.
Lemma marked_ok ws : marked ws = false -> ~ mark_after_qualifier ws.
Proof.
  intros N (a & p & q & r & b & -> & P & R). revert N. induction a as [|x a IH]; cbn [app marked].
  - rewrite P. cbn [second_raw]. destruct R as [->| ->]; discriminate.
  - rewrite orb_false_iff. intros [_ N]. exact (IH N).
Qed.

(** a file with mistakes, in two layouts *)
Definition plain_file : text := `"module M{fun f(x: u8){let = S{a: 1,b}+M::x ;let y:u8=(2 3);}fun g() :u8{}}
script { fun }".
Definition airy_file : text := `"module M { // a module
  // with two functions
  fun f ( // no space needed
     x: u8
  )
  { // comment
    let // =
      = // nothing
      S { a:1 , // one
          b // two
        } + M::x ;
    let y : u8 = (2 // no operator
       3) ;
  }
  fun g ( ) : u8 { }
}
// the script
script {
  fun // nothing
}".
Example sample_layouts : tlen plain_file < u32_bound /\ tlen airy_file < u32_bound /\
  token_stream plain_file (tokens_of plain_file) /\ token_stream airy_file (tokens_of airy_file) /\
  ascii_literals (tokens_of plain_file) /\ ascii_literals (tokens_of airy_file) /\
  Forall2 alike (proper (tokens_of plain_file)) (proper (tokens_of airy_file)) /\
  begin_alike (tokens_of plain_file) (tokens_of airy_file) /\
  ~ comment_before_mark (tokens_of plain_file) /\ ~ comment_before_mark (tokens_of airy_file) /\
  ~ mark_after_qualifier (tokens_of plain_file) /\ ~ mark_after_qualifier (tokens_of airy_file) /\
  exists g errs, parse_text plain_file = Ok (g, errs) /\ (2 <= length errs)%nat.
Proof.
  split; [vm_compute; reflexivity|]. split; [vm_compute; reflexivity|].
  split; [apply (cut_ok 1000); [vm_compute; reflexivity|apply asciib_ok; vm_compute; reflexivity]|].
  split; [apply (cut_ok 1000); [vm_compute; reflexivity|apply asciib_ok; vm_compute; reflexivity]|].
  assert (A : forall t, forallb (fun p => asciib (snd p)) (tokens_of t) = true -> ascii_literals (tokens_of t)).
  { intros t H. apply Forall_forall. intros p Hp _. rewrite forallb_forall in H. apply asciib_ok, H, Hp. }
  split; [apply A; vm_compute; reflexivity|]. split; [apply A; vm_compute; reflexivity|].
  split.
  { apply (forall2b (fun p q => kind_eqb (fst p) (fst q) && Bool.eqb (starts_with (snd p) (`"0x")) (starts_with (snd q) (`"0x")))).
    - intros p q H. apply andb_true_iff in H as [H1 H2]. apply kind_eqb_eq in H1. apply Bool.eqb_prop in H2.
      split; [exact H1|]. unfold looks_hex. rewrite <- !starts_with_spec, H2. reflexivity.
    - vm_compute. reflexivity. }
  split; [intros _; vm_compute; reflexivity|].
  split; [apply commented_ok; vm_compute; reflexivity|]. split; [apply commented_ok; vm_compute; reflexivity|].
  split; [apply marked_ok; vm_compute; reflexivity|]. split; [apply marked_ok; vm_compute; reflexivity|].
  eexists _, _. split; [vm_compute; reflexivity|]. apply Nat.leb_le. reflexivity.
Qed.

Print Assumptions C49_same_answers_same_reading_partial.
Print Assumptions C49_careful_layouts_partial.
