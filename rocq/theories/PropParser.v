(** Properties C19-C23 and C25: parsing a file.  Specifications: LexSpec.v
    (token streams), TreeSpec.v and GreenSpec.v (trees).

    A text is shorter than 4 GiB (TextSize is u32; text-size panics beyond). *)
From Coq Require Import String.
From Verif Require Import Base BaseProofs Kinds KindsProofs LexSpec Lexer LexerRuns LexerProofs LexerStateProofs PropLexer
  Parser Grammar Sink TreeSpec GreenSpec ParserLogic GrammarProofs ProcessProofs SinkProofs TermProofs ParseProofs.
Local Open Scope N_scope.

(** a module with an operator expression, comments and a syntax error *)
Definition sample_file : text :=
  `"// m" ++ [cLF] ++ `"script { fun main() { 1 + 2 * 3 - 4; let ; } }".

(** ** C19.  Parsing is lossless: the texts of the leaves are the file. *)
Theorem C19_lossless : forall t g errs,
  tlen t < u32_bound -> parse_text t = Ok (g, errs) -> gtext g = t.
Proof.
  intros t g errs Hs H. pose proof (parse_cases t Hs) as P. rewrite H in P. destruct P as (f & ws & P).
  unfold gtext. rewrite (shows_texts _ _ (ro_leaves _ _ _ _ _ P)). exact (ro_text _ _ _ _ _ P).
Qed.

(** The leaves are the tokens of the text, in order, with their kinds (an
    integer may become an address). *)
Theorem C19_leaves_are_the_tokens : forall t g errs,
  tlen t < u32_bound -> ascii_strings t -> parse_text t = Ok (g, errs) ->
  exists ws, token_stream t ws /\ Forall2 shows (gleaves g) ws.
Proof.
  intros t g errs Hs Ha H. pose proof (parse_cases t Hs) as P. rewrite H in P. destruct P as (f & ws & P).
  destruct (steps_stream _ _ _ (ro_steps _ _ _ _ _ P) eq_refl Ha) as (ws' & n & E & S).
  exists ws'. split; [exact S|]. pose proof (ro_noeof _ _ _ _ _ P) as Ne. pose proof (ro_leaves _ _ _ _ _ P) as L.
  rewrite E in Ne, L. destruct n as [|n].
  - cbn [repeat] in L. rewrite app_nil_r in L. exact L.
  - exfalso. apply Forall_app in Ne as [_ Ne]. apply Forall_inv in Ne. apply Ne. reflexivity.
Qed.

(** ** C20.  The tree is well formed. *)
(** The root is a SOURCE_FILE; no node is a TOMBSTONE and no leaf is an EOF. *)
Theorem C20_well_formed : forall t g errs,
  tlen t < u32_bound -> parse_text t = Ok (g, errs) ->
  (exists cs, g = GNode SOURCE_FILE cs) /\
  (forall k cs, inside (GNode k cs) g -> k <> TOMBSTONE) /\
  (forall k w, inside (GTok k w) g -> k <> EOF /\ w <> []).
Proof.
  intros t g errs Hs H. pose proof (parse_cases t Hs) as P. rewrite H in P. destruct P as (f & ws & P).
  split; [|split].
  - destruct (ro_root _ _ _ _ _ P) as (cs & E & _). eauto.
  - intros k cs Hin. pose proof (inside_strip _ _ Hin (result_strip _ _ _ _ _ P)) as F.
    cbn [strip] in F. apply Forall_inv in F. apply F.
  - intros k w Hin. pose proof (ro_leaves _ _ _ _ _ P) as L. pose proof (ro_noeof _ _ _ _ _ P) as Ne.
    apply inside_leaf in Hin. destruct (Forall2_in_l _ _ _ _ L Hin) as ([k' w'] & Hin' & S1 & S2).
    rewrite Forall_forall in Ne. specialize (Ne _ Hin'). cbn [fst snd] in *. subst w'.
    split; [intros ->; destruct S2 as [<-|[_ S2]]; [congruence|discriminate]|].
    pose proof (steps_nonempty _ _ _ (ro_steps _ _ _ _ _ P)) as Z.
    rewrite Forall_forall in Z. apply (Z _ Hin'). exact Ne.
Qed.

(** When the grammar has returned, making the tree succeeds. *)
Theorem C20_tree_building_cannot_fail : forall t lx events tokens,
  tlen t < u32_bound -> lexer_new t = Ok lx -> parse_with_lexer lx = Ok (events, tokens) ->
  exists calls g errs,
    process events = Ok calls /\
    (let! s := sink_run t tokens sink_new calls in sink_finish t tokens s) = Ok (g, errs) /\
    source_file_parse t = Ok (g, errs).
Proof.
  intros t lx evs toks Hs HL HP. pose proof HP as HP'. unfold parse_with_lexer in HP.
  apply bind_ok in HP as ([u s] & HI & HP). injection HP as <- <-.
  pose proof (grammar_sound t lx (parse_fuel (lx_text lx)) HL) as G. rewrite HI in G. destruct G as (f & gs & G).
  destruct (build_ok _ _ _ _ _ Hs G) as (g & errs & R & O).
  rewrite (process_den _ _ (p_den _ _ _ _ _ G)) in *. cbn [bind] in R.
  exists (flat [TNode SOURCE_FILE f]), g, errs. split; [reflexivity|]. split; [exact R|].
  unfold source_file_parse, parse_text. rewrite HL. cbn [bind]. rewrite HP'. cbn [bind].
  rewrite (process_den _ _ (p_den _ _ _ _ _ G)). cbn [bind]. rewrite R. cbn [bind].
  destruct (ro_root _ _ _ _ _ O) as (cs & -> & _). reflexivity.
Qed.

(** The calls made on the tree builder balance: no prefix closes more nodes
    than it opens, and the whole opens and closes the same number. *)
Theorem C20_starts_and_finishes_balance : forall t lx events tokens calls,
  lexer_new t = Ok lx -> parse_with_lexer lx = Ok (events, tokens) -> process events = Ok calls ->
  opened calls = closed calls /\
  forall before after, calls = before ++ after -> after <> [] -> before <> [] -> (closed before < opened before)%nat.
Proof.
  intros t lx evs toks calls HL HP HC. unfold parse_with_lexer in HP.
  apply bind_ok in HP as ([u s] & HI & HP). injection HP as <- <-.
  pose proof (grammar_sound t lx (parse_fuel (lx_text lx)) HL) as G. rewrite HI in G. destruct G as (f & gs & G).
  rewrite (process_den _ _ (p_den _ _ _ _ _ G)) in HC. assert (calls = flat [TNode SOURCE_FILE f]) by congruence. subst calls. clear HC.
  split; [apply flat_balanced|].
  intros b a E Ha Hb. change (flat [TNode SOURCE_FILE f]) with ((SStart SOURCE_FILE :: flat f ++ [SFinish]) ++ []) in E.
  rewrite app_nil_r in E. destruct b as [|c b]; [congruence|]. injection E as <- E.
  cbn [opened closed filter length is_start is_finish].
  assert (X : exists a', flat f = b ++ a').
  { destruct (exists_last Ha) as (a' & x & ->). rewrite app_assoc in E. apply app_inj_tail in E as [E _]. eauto. }
  destruct X as [a' X]. pose proof (flat_prefix f b a' X) as Y. unfold opened, closed in Y. lia.
Qed.

(** ** C21.  Parsing always stops: the number of nested grammar calls and loop
    iterations is below a linear function of the length (64 * (10002 + length)),
    and more fuel gives the same result. *)
Theorem C21_parsing_stops : forall t, tlen t < u32_bound -> parse_text t <> Fuel.
Proof.
  intros t Hs H. pose proof (parse_cases t Hs) as P. rewrite H in P. exact P.
Qed.

Theorem C21_calls_are_linear : forall t lx depth,
  lexer_new t = Ok lx -> (64 * N.to_nat (10002 + tlen t) <= depth)%nat ->
  interp (run depth) root (parser_new lx) = interp (run (64 * N.to_nat (10002 + tlen t))) root (parser_new lx) /\
  interp (run depth) root (parser_new lx) <> Fuel.
Proof.
  intros t lx d HL Hd. pose proof (parse_ends t lx HL) as E. unfold parse_with_lexer in E.
  destruct (lexer_new_inv _ _ HL) as (k & len & I). rewrite (li_text _ _ _ _ _ _ I) in E.
  assert (N1 : interp (run (parse_fuel t)) root (parser_new lx) <> Fuel).
  { intros X. rewrite X in E. apply E. reflexivity. }
  assert (M : interp (run d) root (parser_new lx) = interp (run (parse_fuel t)) root (parser_new lx)).
  { apply interp_more; [|exact N1]. intros f s X. apply run_more; auto. }
  unfold parse_fuel in *. rewrite M. auto.
Qed.

(** ** C22.  Error positions: in order, inside the text, at token boundaries. *)
Theorem C22_error_positions : forall t g errs,
  tlen t < u32_bound -> parse_text t = Ok (g, errs) ->
  ascending 0 (map se_pos errs) (tlen t) /\
  forall e, In e errs -> exists before after,
    gleaves g = before ++ after /\ se_pos e = tlen (concat (map snd before)).
Proof.
  intros t g errs Hs H. pose proof (parse_cases t Hs) as P. rewrite H in P. destruct P as (f & ws & P).
  split; [exact (ro_sorted _ _ _ _ _ P)|]. intros e He.
  pose proof (ro_boundary _ _ _ _ _ P) as B. rewrite Forall_forall in B. destruct (B e He) as (a & b & E & Ep).
  pose proof (ro_leaves _ _ _ _ _ P) as L. rewrite E in L. apply Forall2_app_inv_r in L as (a' & b' & La & Lb & EL).
  exists a', b'. split; [exact EL|]. rewrite Ep. unfold pieces. rewrite (shows_texts _ _ La). reflexivity.
Qed.

(** ** C23.  Every binary expression in a parsed file has three parts besides
    trivia: an operand, an operator of the table and an operand; the left
    operand is not a looser binary expression, the right one is tighter. *)
Theorem C23_grouping_partial : forall t g errs cs,
  tlen t < u32_bound -> parse_text t = Ok (g, errs) -> inside (GNode BIN_EXPR cs) g ->
  exists l op r p, flat_map strip cs = [l; TTok op; r] /\ prec op = Some p /\ binds p l /\ binds (p + 1) r.
Proof.
  intros t g errs cs Hs H Hin. pose proof (parse_cases t Hs) as P. rewrite H in P. destruct P as (f & ws & P).
  pose proof (inside_strip _ _ Hin (result_strip _ _ _ _ _ P)) as F. cbn [strip] in F. apply Forall_inv in F.
  destruct F as (_ & O & _). exact (O eq_refl).
Qed.

(** That shape determines the tree: of all expressions that read as the same
    sequence of operands and operators, the parsed one is the only one that is
    grouped by precedence with equal precedence to the left. *)
Theorem C23_grouping_is_unique_partial : forall t g errs k cs e e',
  tlen t < u32_bound -> parse_text t = Ok (g, errs) -> inside (GNode k cs) g ->
  strip (GNode k cs) = [e] -> grouped e' -> seq_of e' = seq_of e -> e' = e.
Proof.
  intros t g errs k cs e e' Hs H Hin He Ge Es. pose proof (parse_cases t Hs) as P. rewrite H in P. destruct P as (f & ws & P).
  pose proof (inside_strip _ _ Hin (result_strip _ _ _ _ _ P)) as F. rewrite He in F. apply Forall_inv in F.
  apply (grouped_unique (length (seq_of e')) e' e); auto. apply tree_ok_grouped. exact F.
Qed.

(** ** C25.  Parsing never panics: false. *)
Theorem C25_never_panics_refuted :
  (* an unknown character *)
  parse_text (`"$") = Panic PTodo /\
  (* a token that starts no item: the parser does not advance *)
  parse_text (`"foo") = Panic PAssert /\
  (* a module inside an address block is required *)
  parse_text (`"address 0x1 { fun }") = Panic PAssert /\
  (* three-byte characters in a byte string *)
  parse_text (`"script { fun f() { b" ++ [34; 8364; 34] ++ `" } }") = Panic PSlice.
Proof. repeat split; vm_compute; reflexivity. Qed.

(** What a panic can be: a failed assertion (an explicit [assert!], or more
    than 10 000 looks at the next token), an unknown token, or a byte string
    with characters outside ASCII.  Never an index out of bounds, a failed
    unwrap, an arithmetic overflow, an undefused marker or "unreachable". *)
Theorem C25_kinds_of_panic_partial : forall t w,
  tlen t < u32_bound -> parse_text t = Panic w -> w = PAssert \/ w = PTodo \/ w = PSlice.
Proof.
  intros t w Hs H. pose proof (parse_cases t Hs) as P. rewrite H in P. exact P.
Qed.

(** ** The hypotheses are met *)
Fixpoint subtrees (g : green) : list green :=
  g :: match g with GNode _ cs => flat_map subtrees cs | GTok _ _ => [] end.
Lemma subtrees_inside x : forall g, In x (subtrees g) -> inside x g.
Proof.
  fix IH 1. intros [k cs|k w] H; destruct H as [E|H]; try (rewrite <- E; apply inside_here); [|destruct H].
  apply in_flat_map in H as (c & Hc & H). apply (inside_child _ _ _ c Hc).
  revert c Hc H. induction cs as [|c0 cs IHc]; intros c Hc H; [destruct Hc|].
  destruct Hc as [E|Hc]; [|apply (IHc c Hc H)].
  rewrite <- E in H. rewrite <- E. exact (IH c0 H).
Qed.
Definition sample_result := Eval vm_compute in parse_text sample_file.
Example sample_parses : exists g errs, parse_text sample_file = Ok (g, errs) /\ gtext g = sample_file /\
  length errs = 1%nat /\ ascii_strings sample_file /\ tlen sample_file < u32_bound /\
  exists cs, inside (GNode BIN_EXPR cs) g.
Proof.
  assert (E : parse_text sample_file = sample_result) by (vm_compute; reflexivity).
  unfold sample_result in E. match type of E with _ = Ok (?g, ?e) => exists g, e end.
  split; [exact E|]. split; [vm_compute; reflexivity|]. split; [reflexivity|].
  split; [apply C18_ascii_in_scope; unfold ascii; apply Forall_forall;
    assert (F : forallb (fun c => c <? 128) sample_file = true) by (vm_compute; reflexivity);
    rewrite forallb_forall in F; intros x Hx; specialize (F x Hx); lia|]. split; [vm_compute; reflexivity|].
  match goal with |- exists cs, inside _ ?g =>
    assert (F : exists cs, In (GNode BIN_EXPR cs) (filter (fun x => match x with GNode BIN_EXPR _ => true | _ => false end) (subtrees g)))
      by (eexists; cbn [subtrees]; vm_compute; left; reflexivity) end.
  destruct F as [cs F]. exists cs. apply filter_In in F as [F _]. apply subtrees_inside. exact F.
Qed.
Example other_tree_is_grouped_differently :
  let n := TNode LITERAL [TTok INTEGER_NUMBER] in
  let right := TNode BIN_EXPR [n; TTok PLUS; TNode BIN_EXPR [n; TTok STAR; n]] in
  let wrong := TNode BIN_EXPR [TNode BIN_EXPR [n; TTok PLUS; n]; TTok STAR; n] in
  seq_of right = seq_of wrong /\ grouped right /\ ~ grouped wrong.
Proof.
  cbn. split; [reflexivity|]. split.
  - split; [|split; [exact I|]]; [exists 10; split; [reflexivity|]; split; [exact I|exists 11; split; [reflexivity|lia]]|].
    split; [exists 11; repeat split|split; exact I].
  - intros ((p & Hp & (q & Hq & L) & _) & _). injection Hp as <-. injection Hq as <-. lia.
Qed.

Print Assumptions C19_lossless.
Print Assumptions C19_leaves_are_the_tokens.
Print Assumptions C20_well_formed.
Print Assumptions C20_tree_building_cannot_fail.
Print Assumptions C20_starts_and_finishes_balance.
Print Assumptions C21_parsing_stops.
Print Assumptions C21_calls_are_linear.
Print Assumptions C22_error_positions.
Print Assumptions C23_grouping_partial.
Print Assumptions C23_grouping_is_unique_partial.
Print Assumptions C25_never_panics_refuted.
Print Assumptions C25_kinds_of_panic_partial.
