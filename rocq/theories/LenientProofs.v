(** Every grammar function, when it reports no error, makes a tree of the form
    LenientSpec.v gives. *)
From Coq Require Import String.
From Verif Require Import Base BaseProofs Kinds KindsProofs TokenSet Lexer LexerProofs LexerStateProofs
  Parser Grammar TreeSpec SyntaxSpec LenientSpec ParserLogic GrammarProofs LenientLogic.
Local Open Scope N_scope.

Section Proofs.
Variable plain : bool.
Local Notation lenient := (@accepts plain).
Local Notation lwp := (LenientLogic.lwp plain).
Local Notation lpre := (LenientLogic.lpre plain).
Local Notation lpost := (LenientLogic.lpost plain).
Local Notation ends := (LenientLogic.ends plain).
Local Notation lwp_bind := (LenientLogic.lwp_bind plain).

(** ** Rules for the helpers of Parser.v *)
Lemma y_at k (Q : bool -> lst -> Prop) st : Q (kind_eqb (l_cur st) k) st -> lwp (at_ k) Q st.
Proof. intros H. exact H. Qed.
Lemma y_nth_at k (Q : bool -> lst -> Prop) c n l K s :
  (forall k', Q (kind_eqb k' k) (L c (Some k') l K s)) -> lwp (nth_at 1 k) Q (L c n l K s).
Proof. intros H. cbn. intros x. apply H. Qed.
Lemma y_nth1 (Q : kind -> lst -> Prop) c n l K s : (forall k', Q k' (L c (Some k') l K s)) -> lwp (nth_ 1) Q (L c n l K s).
Proof. intros H. cbn. intros x. apply H. Qed.
Lemma y_nth2 (Q : kind -> lst -> Prop) st : (forall k', Q k' st) -> lwp (nth_ 2) Q st.
Proof. intros H. cbn. intros x. apply H. Qed.
Lemma y_current (Q : kind -> lst -> Prop) st : Q (l_cur st) st -> lwp current Q st.
Proof. intros H. exact H. Qed.
Lemma y_current_text (Q : text -> lst -> Prop) st : (forall x, Q x st) -> lwp current_text Q st.
Proof. intros H. exact H. Qed.
Lemma y_at_ts ts (Q : bool -> lst -> Prop) st : Q (kind_in (l_cur st) ts) st -> lwp (at_ts ts) Q st.
Proof. intros H. unfold at_ts. cbn. rewrite ts_has_spec. exact H. Qed.
Lemma y_start (Q : nat -> lst -> Prop) c n l K s :
  (forall m, Q m (L c n None [] (Open m None K :: s))) -> lwp start Q (L c n l K s).
Proof. intros H. exact H. Qed.
Lemma y_error msg (Q : unit -> lst -> Prop) st : lwp (error msg) Q st.
Proof. exact I. Qed.
Lemma y_complete m k (Q : cmark -> lst -> Prop) c n l K i B s : k <> TOMBSTONE -> node_ok k (opt_tree i ++ K) ->
  (forall r, Q r (L c n (Some r) (B ++ [TNode k (opt_tree i ++ K)]) s)) ->
  lwp (complete m k) Q (L c n l K (Open m i B :: s)).
Proof. intros H1 H2 H. cbn. auto. Qed.
Lemma y_abandon m (Q : unit -> lst -> Prop) c n l K B s : Q tt (L c n None (B ++ K) s) ->
  lwp (abandon m) Q (L c n l K (Open m None B :: s)).
Proof. intros H. cbn. auto. Qed.
Lemma y_precede q (Q : nat -> lst -> Prop) c n K T s : (forall m, Q m (L c n None [] (Open m (Some T) K :: s))) ->
  lwp (precede q) Q (L c n (Some q) (K ++ [T]) s).
Proof. intros H. cbn. split; [reflexivity|]. exists K, T. split; [reflexivity|exact H]. Qed.
Lemma y_assert_p p (Q : unit -> lst -> Prop) st : lwp p (fun b st' => b = true -> Q tt st') st -> lwp (assert_p p) Q st.
Proof. intros H. unfold assert_p. apply lwp_bind. cbn. exact H. Qed.

(** [c'] may be the next token, according to what was looked ahead *)
Definition follows (c : kind) (n : option kind) (c' : kind) : Prop :=
  is_trivia c' = false /\ (forall k, n = Some k -> is_trivia k = false -> c' = k) /\
  (plain = true -> c = IDENT -> c' = L_BRACE -> forall k, n = Some k -> k = L_BRACE).
Lemma y_eat k (Q : bool -> lst -> Prop) c n l K s : k <> EOF ->
  (c = k -> forall c', follows c n c' -> Q true (L c' None None (K ++ [TTok k]) s)) ->
  (c <> k -> Q false (L c n l K s)) -> lwp (eat k) Q (L c n l K s).
Proof.
  intros Hk H1 H2. unfold eat. apply lwp_bind. apply y_at. cbn [l_cur].
  destruct (kind_eqb c k) eqn:E.
  - apply kind_eqb_eq in E. subst c. cbn. split; [apply remap_refl|]. split; [exact Hk|].
    intros c' T F G. apply H1; [reflexivity|]. split; [exact T|split; [exact F|exact G]].
  - apply kind_eqb_neq in E. apply H2. exact E.
Qed.
Lemma y_bump k (Q : unit -> lst -> Prop) c n l K s : k <> EOF ->
  (c = k -> forall c', follows c n c' -> Q tt (L c' None None (K ++ [TTok k]) s)) ->
  lwp (bump k) Q (L c n l K s).
Proof. intros Hk H. unfold bump. apply y_assert_p. apply y_eat; [exact Hk|auto|]. intros _ E. discriminate. Qed.
Lemma y_expect k (Q : bool -> lst -> Prop) c n l K s : k <> EOF ->
  (c = k -> forall c', follows c n c' -> Q true (L c' None None (K ++ [TTok k]) s)) -> lwp (expect k) Q (L c n l K s).
Proof. intros Hk H1. unfold expect. apply lwp_bind. apply y_eat; [exact Hk|auto|]. intros _. exact I. Qed.
Lemma y_bump_any (Q : unit -> lst -> Prop) c n l K s :
  (c = EOF -> Q tt (L c n l K s)) ->
  (c <> EOF -> forall c', follows c n c' -> Q tt (L c' None None (K ++ [TTok c]) s)) ->
  lwp bump_any Q (L c n l K s).
Proof.
  intros H1 H2. unfold bump_any. apply lwp_bind. apply y_current. cbn [l_cur].
  destruct (kind_eqb c EOF) eqn:E.
  - apply kind_eqb_eq in E. apply H1. exact E.
  - apply kind_eqb_neq in E. cbn. split; [apply remap_refl|]. split; [exact E|].
    intros c' T F G. apply H2; [exact E|]. split; [exact T|split; [exact F|exact G]].
Qed.
Lemma y_bump_remap_address (Q : unit -> lst -> Prop) c n l K s : c = INTEGER_NUMBER ->
  (forall c', Q tt (L c' None None (K ++ [TTok DIEM_ADDRESS]) s)) ->
  lwp (bump_remap DIEM_ADDRESS) Q (L c n l K s).
Proof. intros -> H. cbn. split; [right; auto|]. split; [discriminate|]. intros c0 _ _ _. apply H. Qed.
Lemma y_err_recover msg r (Q : unit -> lst -> Prop) st : lwp (err_recover msg r) Q st.
Proof.
  unfold err_recover. apply lwp_bind, y_current. destruct (_ || _); [exact I|]. apply lwp_bind, y_at_ts.
  destruct (kind_in _ _); exact I || (cbn; intros; exact I).
Qed.
Lemma y_err_and_bump msg (Q : unit -> lst -> Prop) st : lwp (err_and_bump msg) Q st.
Proof. apply y_err_recover. Qed.
Lemma y_error_skip msg ts (Q : cmark -> lst -> Prop) st : lwp (error_and_skip_until msg ts) Q st.
Proof. cbn. intros; exact I. Qed.
Lemma y_error_block msg (Q : unit -> lst -> Prop) st : lwp (error_block msg) Q st.
Proof. unfold error_block. apply lwp_bind, y_assert_p, y_at. intros _. cbn. intros; exact I. Qed.

(** ** Automation *)
Lemma app_one {A} (a : list A) x b : (a ++ [x]) ++ b = a ++ x :: b.
Proof. rewrite <- app_assoc. reflexivity. Qed.

Ltac keqs := repeat match goal with
  | H : kind_eqb ?a ?b = true |- _ => apply kind_eqb_eq in H; try subst a; try discriminate
  | H : kind_eqb ?a ?b = false |- _ => apply kind_eqb_neq in H
  | H : negb _ = true |- _ => apply negb_true_iff in H
  | H : negb _ = false |- _ => apply negb_false_iff in H
  end.
Ltac rules := fail.
Ltac step1 :=
  lazymatch goal with
  | |- kind_eqb _ _ = true -> _ => intro; keqs
  | |- forall _, _ => intro
  | |- lwp (pbind _ _) _ _ => apply lwp_bind
  | |- lwp (Ret _) _ _ => cbn [LenientLogic.lwp]
  | |- lwp (if ?b then _ else _) _ _ =>
      first [ (let x := eval vm_compute in b in match x with true => idtac | false => idtac end; change b with x; cbv iota)
            | destruct b eqn:?; keqs ]
  | |- lwp (let _ := _ in _) _ _ => cbv zeta
  | |- lwp (andp _ _) _ _ => unfold andp
  | |- lwp (orp _ _) _ _ => unfold orp
  | |- lwp (notp _) _ _ => unfold notp
  | |- lwp (assert_p _) _ _ => apply y_assert_p
  | |- lwp (at_ _) _ _ => apply y_at; cbn [l_cur]
  | |- lwp (at_ts _) _ _ => apply y_at_ts; cbn [l_cur]
  | |- lwp (nth_at 1 _) _ _ => apply y_nth_at
  | |- lwp (nth_ 1) _ _ => apply y_nth1
  | |- lwp (nth_ 2) _ _ => apply y_nth2
  | |- lwp current _ _ => apply y_current; cbn [l_cur]
  | |- lwp current_text _ _ => apply y_current_text
  | |- lwp start _ _ => apply y_start
  | |- lwp (error _) _ _ => exact I
  | |- lwp (err_recover _ _) _ _ => apply y_err_recover
  | |- lwp (err_and_bump _) _ _ => apply y_err_and_bump
  | |- lwp (error_and_skip_until _ _) _ _ => apply y_error_skip
  | |- lwp (error_block _) _ _ => apply y_error_block
  | |- lwp (abandon _) _ _ => apply y_abandon
  | |- lwp (eat _) _ _ => apply y_eat; [discriminate| |]
  | |- lwp (bump _) _ _ => apply y_bump; [discriminate|]
  | |- lwp (expect _) _ _ => apply y_expect; [discriminate|]
  | |- lwp bump_any _ _ => apply y_bump_any
  | |- lwp (complete _ _) _ _ => apply y_complete; [discriminate|intro; discriminate|]
  | |- _ => rules
  end.

(** A function that adds a forest of a given form. *)
Definition yields {A} (p : prog A) (c : kind) (P : A -> kind -> forest -> Prop) : Prop :=
  forall n l K s (Q : A -> lst -> Prop),
    (forall a c' n' l' new, P a c' new -> Q a (L c' n' l' (K ++ new) s)) -> lwp p Q (L c n l K s).
Definition gives (x : nt) {A} (_ : A) (_ : kind) (new : forest) : Prop := lenient x new.
Definition one (t : tree) {A} (_ : A) (_ : kind) (new : forest) : Prop := new = [t].

Ltac fin H :=
  cbn [opt_tree app]; rewrite <- ?app_assoc; cbn [app];
  first [ apply H
        | match goal with |- ?Q ?a (L ?c ?n ?l ?K ?s) =>
            rewrite <- (app_nil_r K); apply H end ].
Ltac go H := repeat step1; try (subst; try discriminate); try (fin H).

Lemma y_name_r r c : yields (name_r r) c (one name_node).
Proof. intros n l K s Q H. unfold name_r. go H. reflexivity. Qed.
Lemma y_name c : yields name c (one name_node).
Proof. apply y_name_r. Qed.
Lemma y_name_ref c : yields name_ref c (one name_ref_node).
Proof. intros n l K s Q H. unfold name_ref. go H. reflexivity. Qed.

Definition until (k c : kind) {A} (P : A -> kind -> forest -> Prop) (a : A) (c' : kind) (new : forest) : Prop :=
  P a c' new /\ (c = k -> new = [] /\ c' = k).
Lemma y_grow {f P} c : (forall st, lpre f st) ->
  (forall n l K s b st', lpost f (L c n l K s) b st' -> lgrows (P b) (L c n l K s) st') -> yields (call f) c P.
Proof.
  intros P1 P2 n l K s Q H. unfold call. cbn [LenientLogic.lwp]. split; [apply P1|].
  intros b st Hb. apply P2 in Hb. destruct st as [c' n' l' K' s']. destruct Hb as (E1 & new & E2 & HP).
  cbn [l_stack l_kids l_cur] in *. subst. apply H. exact HP.
Qed.
Ltac grow f := apply (@y_grow f); [intros ?; exact I|intros ? ? ? ? ? ? Hpost; exact Hpost].
Lemma y_root c : yields (call F_root) c (fun _ _ new => lenient File (filter not_blank new)). Proof. grow F_root. Qed.
Lemma y_address_items c : yields (call F_address_items) c (gives Modules). Proof. grow F_address_items. Qed.
Lemma y_items c : yields (call F_items) c (gives Items). Proof. grow F_items. Qed.
Lemma y_record_fields c : yields (call F_record_fields) c (until R_BRACE c (gives (Commas Field))).
Proof. grow F_record_fields. Qed.
Lemma y_generic_params c : yields (call F_generic_params) c (until GT c (gives (Commas TypeParam))).
Proof. grow F_generic_params. Qed.
Lemma y_bounds_call c : yields (call F_bounds) c (gives Bounds). Proof. grow F_bounds. Qed.
Lemma y_params c : yields (call F_params) c (until R_PAREN c (gives (Commas Param))). Proof. grow F_params. Qed.
Lemma y_type c : yields type_ c (fun _ _ new => exists ty, new = [ty] /\ lenient Type_ [ty]). Proof. grow F_type. Qed.
Lemma y_block_contents c : yields block_contents c (fun _ c' new => (c' = EOF \/ lenient Stmts new /\ begun c new) /\ (c = EOF -> c' = EOF)). Proof. grow F_block_contents. Qed.
Lemma y_record_expr_fields c : yields (call F_record_expr_fields) c (until R_BRACE c (fun _ => ends (Commas FieldInit))).
Proof. grow F_record_expr_fields. Qed.
Lemma y_pattern c : yields pattern c (fun _ c' new => exists p, new = [p] /\ lenient Pattern_ [p] /\
  (plain = true -> p = TNode IDENT_PAT [name_node] -> c' <> L_BRACE)). Proof. grow F_pattern. Qed.
Lemma y_record_pat_fields c : yields (call F_record_pat_fields) c (until R_BRACE c (gives (Commas FieldPat))).
Proof. grow F_record_pat_fields. Qed.
Lemma y_args c : yields (call F_args) c (fun _ c' new =>
  until R_PAREN c (fun _ => ends (Commas (Expr 1))) tt c' new /\ (c' = EOF \/ c' = R_PAREN)).
Proof.
  apply (@y_grow F_args); [intros; exact I|]. intros n l K s b st' ((E1 & new & E2 & HP) & E3).
  split; [exact E1|]. exists new. split; [exact E2|]. split; [exact HP|exact E3].
Qed.
Lemma y_paren c : yields (call F_paren) c (fun b c' new => b = true /\ (c' = EOF \/ Forall (fun e => lenient (Expr 1) [e]) new /\ separate new /\ begun c new) /\ (c = EOF -> c' = EOF)).
Proof.
  apply (@y_grow F_paren); [intros; exact I|]. intros n l K s b st' (Eb & E1 & new & E2 & HP). split; [exact E1|]. eauto.
Qed.
Lemma y_tuple_pat_call hc hp c : (hc = true -> hp = true) ->
  yields (call (F_tuple_pat hc hp false)) c (fun flags c' new =>
    until R_PAREN c (gives (Commas Pattern_)) flags c' new /\
    flags = (hc || negb (Nat.leb (length new) 1), hp || negb (Nat.eqb (length new) 0), false)).
Proof.
  intros H0. apply (@y_grow (F_tuple_pat hc hp false)); [intros; split; auto|].
  intros n l K s b st' (hc' & hp' & -> & E1 & new & E2 & HP & -> & ->).
  split; [exact E1|]. exists new. split; [exact E2|]. split; [exact HP|reflexivity].
Qed.

Lemma y_path_for_qualifier q (Q : unit -> lst -> Prop) c n K T s : lenient Path_ [T] ->
  (forall c' n' l' T', lenient Path_ [T'] -> (forall k, starts k T -> starts k T') ->
     (c <> COLON_COLON -> T' = T /\ c' = c) -> Q tt (L c' n' l' (K ++ [T']) s)) ->
  lwp (call (F_path_for_qualifier q)) Q (L c n (Some q) (K ++ [T]) s).
Proof.
  intros HT H. unfold call. cbn [LenientLogic.lwp LenientLogic.lpre]. split; [exists K, T; split; [split; reflexivity|exact HT]|].
  intros [] [c' n' l' K' s'] (H1 & f0 & t & t' & H2 & H3 & H4 & H5 & H6). cbn [l_kids l_stack l_cur] in *. subst.
  apply app_inj_tail in H2 as [<- <-]. apply H; auto.
Qed.
Lemma y_postfix q (Q : cmark -> lst -> Prop) c n K T s : c = EOF \/ lenient Postfix [T] -> nonbin T ->
  (last_path T = true -> c <> L_BRACE) ->
  (forall d c' n' T', c' = EOF \/ lenient Postfix [T'] -> nonbin T' -> (forall k, starts k T -> starts k T') -> quiet T' c' ->
     Q d (L c' n' (Some d) (K ++ [T']) s)) ->
  lwp (call (F_postfix q)) Q (L c n (Some q) (K ++ [T]) s).
Proof.
  intros HT HN HP H. unfold call. cbn [LenientLogic.lwp LenientLogic.lpre]. split; [exists K, T; split; [split; reflexivity|auto]|].
  intros d [c' n' l' K' s'] (H1 & f0 & t & t' & H2 & [H3 H4] & H5 & H6 & H7 & H8). cbn [l_kids l_stack l_cur l_last] in *. subst.
  apply app_inj_tail in H2 as [<- <-]. apply H; auto.
Qed.
Lemma y_expr_bp bp (Q : option cmark -> lst -> Prop) c n l K s : 1 <= bp ->
  (forall d c' n' T', c' = EOF \/ lenient (Expr bp) [T'] -> binds bp T' -> starts c T' ->
     (forall p, prec c' = Some p -> p < bp) -> quiet T' c' -> Q (Some d) (L c' n' (Some d) (K ++ [T']) s)) ->
  lwp (call (F_expr_bp bp)) Q (L c n l K s).
Proof.
  intros HB H. unfold call. cbn [LenientLogic.lwp LenientLogic.lpre]. split; [exact HB|].
  intros o [c' n' l' K' s'] (H1 & d & t' & -> & [H2 H3] & H4 & H5 & H6 & H7 & H8). cbn [l_kids l_stack l_cur l_last] in *. subst.
  apply H; auto.
Qed.
Lemma y_expr (Q : option cmark -> lst -> Prop) c n l K s :
  (forall d c' n' T', c' = EOF \/ lenient (Expr 1) [T'] -> starts c T' -> ~ takes T' c' -> Q (Some d) (L c' n' (Some d) (K ++ [T']) s)) ->
  lwp expr Q (L c n l K s).
Proof.
  intros H. apply y_expr_bp; [lia|]. intros d c' n' T' HT HB HS HP [Q1 Q2]. apply H; auto.
  intros [(p & E)|[E|[E1 E2]]]; [|auto|exact (Q2 E1 E2)]. pose proof (HP _ E). destruct (prec_pos _ _ E). lia.
Qed.
Lemma y_loop bp q (Q : option cmark -> lst -> Prop) c n K T s : 1 <= bp ->
  c = EOF \/ lenient (Expr bp) [T] -> binds bp T -> (forall p, prec c = Some p -> lenient (Expr p) [T] /\ binds p T) -> quiet T c ->
  (forall d c' n' T', c' = EOF \/ lenient (Expr bp) [T'] -> binds bp T' -> (forall k, starts k T -> starts k T') ->
     (forall p, prec c' = Some p -> p < bp) -> quiet T' c' -> Q (Some d) (L c' n' (Some d) (K ++ [T']) s)) ->
  lwp (call (F_expr_bp_loop bp q)) Q (L c n (Some q) (K ++ [T]) s).
Proof.
  intros HB HT HN HP HU H. unfold call. cbn [LenientLogic.lwp LenientLogic.lpre]. split; [split; [exact HB|exists K, T; split; [split; reflexivity|auto]]|].
  intros o [c' n' l' K' s'] (H1 & f0 & t & d & t' & H2 & -> & [H3 H4] & H5 & H6 & H7 & H8 & H9).
  cbn [l_kids l_stack l_cur l_last] in *. subst.
  apply app_inj_tail in H2 as [<- <-]. apply H; auto.
Qed.

(** use the contract [H] of a function, with continuation *)
Ltac use H := apply H; intros ? ? ? ? ? ?; unfold gives, one in *; subst.
Ltac rules0 :=
  lazymatch goal with
  | |- lwp name _ _ => use y_name
  | |- lwp (name_r _) _ _ => use y_name_r
  | |- lwp name_ref _ _ => use y_name_ref
  | |- lwp type_ _ _ => apply y_type; intros ? ? ? ? ? (? & -> & ?)
  | |- lwp pattern _ _ => apply y_pattern; intros ? ? ? ? ? (? & -> & ? & ?)
  | |- lwp block_contents _ _ => use y_block_contents
  | |- lwp (call F_address_items) _ _ => use y_address_items
  | |- lwp (call F_items) _ _ => use y_items
  | |- lwp (call F_record_fields) _ _ => use y_record_fields
  | |- lwp (call F_generic_params) _ _ => use y_generic_params
  | |- lwp (call F_bounds) _ _ => use y_bounds_call
  | |- lwp (call F_params) _ _ => use y_params
  | |- lwp (call F_record_expr_fields) _ _ => use y_record_expr_fields
  | |- lwp (call F_record_pat_fields) _ _ => use y_record_pat_fields
  | |- lwp expr _ _ => apply y_expr; intros ? ? ? ? ? ? ?
  end.
Ltac rules ::= rules0.

(** ** Blocks, paths, types *)
Lemma y_block_expr_unchecked (Q : cmark -> lst -> Prop) c n l K s :
  (forall d c' n' T, c = L_BRACE -> lenient Block [T] -> nonbin T -> starts L_BRACE T -> last_path T = false -> Q d (L c' n' (Some d) (K ++ [T]) s)) ->
  lwp block_expr_unchecked Q (L c n l K s).
Proof.
  intros H. unfold block_expr_unchecked. repeat step1; subst.
  fin H; [reflexivity| |apply nonbin_node; discriminate| |].
  - match goal with E : (_ \/ _) /\ _ |- _ => destruct E as [[E|[E _]] _]; [discriminate E|] end. apply n_block. assumption.
  - cbn. eexists. reflexivity.
  - reflexivity.
Qed.
Lemma y_block_expr c : yields block_expr c (fun _ _ new => exists b, new = [b] /\ lenient Block [b]).
Proof.
  intros n l K s Q H. unfold block_expr. do 3 step1; step1.
  apply lwp_bind, y_block_expr_unchecked. intros. cbn [LenientLogic.lwp]. fin H. eauto.
Qed.

(** the path at a name; with a brace just ahead it is the name alone *)
Lemma y_path (Q : unit -> lst -> Prop) n l K s :
  (forall c' n' l' T, lenient Path_ [T] -> starts IDENT T ->
     (n = Some L_BRACE -> T = TNode PATH [segment_node] /\ c' = L_BRACE) -> Q tt (L c' n' l' (K ++ [T]) s)) ->
  lwp path Q (L IDENT n l K s).
Proof.
  intros H. unfold path, path_segment, name_ref. repeat step1; try discriminate.
  cbn [opt_tree app]. apply y_path_for_qualifier; [apply n_path_name|].
  intros c2 n2 l2 T' HT HS HE. apply H; [exact HT|apply HS; eexists; reflexivity|].
  intros ->. match goal with F : follows _ _ _ |- _ => destruct F as (_ & F & _); specialize (F _ eq_refl eq_refl); subst end.
  apply HE. discriminate.
Qed.
Lemma y_path_for_qualifier_body q (Q : unit -> lst -> Prop) c n K T s : lenient Path_ [T] ->
  (forall c' n' l' T', lenient Path_ [T'] -> (forall k, starts k T -> starts k T') ->
     (c <> COLON_COLON -> T' = T /\ c' = c) -> Q tt (L c' n' l' (K ++ [T']) s)) ->
  lwp (path_for_qualifier_body q) Q (L c n (Some q) (K ++ [T]) s).
Proof.
  intros HT H. unfold path_for_qualifier_body, path_segment, name_ref.
  apply lwp_bind, y_nth2. intros k2. apply lwp_bind, y_at. cbn [l_cur].
  destruct (kind_eqb c COLON_COLON) eqn:E; [|apply kind_eqb_neq in E; cbn [andb LenientLogic.lwp]; apply H; auto].
  apply kind_eqb_eq in E. subst c. cbn [andb].
  destruct (negb _); [|cbn [LenientLogic.lwp]; apply H; auto; congruence].
  apply lwp_bind, y_precede. intros m. repeat step1.
  cbn [opt_tree app]. apply y_path_for_qualifier; [apply n_path; exact HT|].
  intros c2 n2 l2 T' HT' HS HE. apply H; [exact HT'| |congruence].
  intros k (rr & Hr). apply HS. unfold starts. cbn [leaves flat_map app opt_tree]. rewrite Hr. eexists. reflexivity.
Qed.

Ltac rules1 :=
  lazymatch goal with
  | |- lwp block_expr _ _ => apply y_block_expr; intros ? ? ? ? ? (? & -> & ?)
  | |- lwp path _ _ => apply y_path; intros ? ? ? ? ? ? ?
  | |- _ => rules0
  end.
Ltac rules ::= rules1.
Lemma y_type_body c : yields type_body c (fun _ _ new => exists ty, new = [ty] /\ lenient Type_ [ty]).
Proof.
  intros n l K s Q H. unfold type_body, ref_type, is_path_start, path_type, type_path, is_path_start.
  go H; try (eexists; split; [reflexivity|]); try (constructor; assumption).
Qed.
Lemma y_ascription c : yields ascription c (fun _ _ new => exists ty, c = COLON /\ new = [TTok COLON; ty] /\ lenient Type_ [ty]).
Proof. intros n l K s Q H. unfold ascription. go H. eauto. Qed.

(** ** Parameters *)
Ltac rules2 :=
  lazymatch goal with
  | |- lwp ascription _ _ => apply y_ascription; intros ? ? ? ? ? (? & _ & -> & ?)
  | |- _ => rules1
  end.
Ltac rules ::= rules2.
Lemma commas_close x e more : lenient x [e] -> more = [] -> lenient (Commas x) (e :: more).
Proof. intros H ->. apply n_commas_last. exact H. Qed.
(** after [go], for the loops over lists *)
Ltac listq :=
  unfold until, gives in *;
  repeat match goal with H : _ /\ _ |- _ => destruct H end;
  repeat match goal with H : ?a = ?a -> _ |- _ => specialize (H eq_refl) end;
  repeat match goal with H : _ /\ _ |- _ => destruct H end; subst.
Ltac leaf := first [ assumption | reflexivity | (constructor; leaf) ].
Ltac commas :=
  listq; split;
  [ first [ apply n_commas_nil | apply n_commas_more; [constructor; assumption|assumption]
          | apply commas_close; [constructor; assumption|first [assumption|reflexivity]] ]
  | intros; first [ congruence | split; reflexivity ] ].
Lemma y_params_body c : yields params_body c (until R_PAREN c (gives (Commas Param))).
Proof.
  intros n l K s Q H. unfold params_body, param. repeat step1; subst; try discriminate.
  all: fin H; commas.
Qed.
Lemma y_param_list c : yields param_list c (fun _ _ new => exists ps,
  new = [TNode PARAM_LIST (TTok L_PAREN :: ps ++ [TTok R_PAREN])] /\ lenient (Commas Param) ps).
Proof. intros n l K s Q H. unfold param_list. go H. listq. eauto. Qed.
Lemma y_bounds_body c : yields bounds_body c (gives Bounds).
Proof. intros n l K s Q H. unfold bounds_body, type_bound. go H; unfold gives; constructor; assumption. Qed.
Lemma y_bounds c : yields bounds c (fun _ _ new => exists bs, new = [TTok COLON; TNode TYPE_BOUND_LIST bs] /\ lenient Bounds bs).
Proof. intros n l K s Q H. unfold bounds, bounds_without_colon, bounds_without_colon_m. go H. eauto. Qed.
Ltac rules3 :=
  lazymatch goal with
  | |- lwp param_list _ _ => apply y_param_list; intros ? ? ? ? ? (? & -> & ?)
  | |- lwp bounds _ _ => apply y_bounds; intros ? ? ? ? ? (? & -> & ?)
  | |- _ => rules2
  end.
Ltac rules ::= rules3.
Lemma y_generic_params_body c : yields generic_params_body c (until GT c (gives (Commas TypeParam))).
Proof.
  intros n l K s Q H. unfold generic_params_body, generic_param, type_param. repeat step1; subst; try discriminate.
  all: fin H; commas.
Qed.
Lemma y_generic_param_list c : yields generic_param_list c (gives Generics).
Proof. intros n l K s Q H. unfold generic_param_list. go H. listq. apply n_generics. assumption. Qed.
Ltac rules4 :=
  lazymatch goal with
  | |- lwp generic_param_list _ _ => use y_generic_param_list
  | |- _ => rules3
  end.
Ltac rules ::= rules4.
Lemma y_opt_generic_param_list c : yields opt_generic_param_list c (gives Generics).
Proof. intros n l K s Q H. unfold opt_generic_param_list. go H; [assumption|constructor]. Qed.

(** ** Patterns *)
Lemma y_ident_pat c : yields ident_pat c (fun _ _ new =>
  new = [TNode IDENT_PAT [name_node]] \/ new = [TNode IDENT_PAT [TTok MUT_KW; name_node]]).
Proof. intros n l K s Q H. unfold ident_pat. go H; auto. Qed.
(** a name, without a brace after it, or [mut] and a name *)
Lemma y_ident_pat_at (Q : unit -> lst -> Prop) c n l K s :
  (forall c' n' l' p, lenient Pattern_ [p] -> (p = TNode IDENT_PAT [name_node] -> c = IDENT /\
     (plain = true -> c' = L_BRACE -> forall k, n = Some k -> k = L_BRACE)) ->
     Q tt (L c' n' l' (K ++ [p]) s)) -> lwp ident_pat Q (L c n l K s).
Proof.
  intros H. unfold ident_pat, name, name_r. repeat step1; cbn [opt_tree app]; subst; (apply H; [constructor|]).
  - discriminate.
  - intros _. split; [reflexivity|]. match goal with F : follows IDENT _ _ |- _ => destruct F as (_ & _ & F); auto end.
Qed.
Ltac rules5 :=
  lazymatch goal with
  | |- lwp opt_generic_param_list _ _ => use y_opt_generic_param_list
  | |- lwp ident_pat _ _ => apply y_ident_pat; intros ? ? ? ? ? [-> | ->]
  | |- _ => rules4
  end.
Ltac rules ::= rules5.
Lemma y_record_pat_field c : yields record_pat_field c (fun _ _ new => exists f, new = [f] /\ lenient FieldPat [f]).
Proof.
  intros n l K s Q H. unfold record_pat_field. go H.
  all: eexists; split; [reflexivity|]; constructor; assumption.
Qed.
Ltac rules6 :=
  lazymatch goal with
  | |- lwp record_pat_field _ _ => apply y_record_pat_field; intros ? ? ? ? ? (? & -> & ?)
  | |- _ => rules5
  end.
Ltac rules ::= rules6.
Ltac commas' :=
  listq; split;
  [ first [ apply n_commas_nil | apply n_commas_more; [assumption|assumption]
          | apply commas_close; [assumption|first [assumption|reflexivity]] ]
  | intros; first [ congruence | split; reflexivity ] ].
Lemma y_record_pat_fields_body c : yields record_pat_fields_body c (until R_BRACE c (gives (Commas FieldPat))).
Proof.
  intros n l K s Q H. unfold record_pat_fields_body. repeat step1; subst; try discriminate.
  all: fin H; commas'.
Qed.
Lemma y_record_pat_field_list c : yields record_pat_field_list c (fun _ _ new => exists fs,
  c = L_BRACE /\ new = [TNode RECORD_PAT_FIELD_LIST (TTok L_BRACE :: fs ++ [TTok R_BRACE])] /\ lenient (Commas FieldPat) fs).
Proof. intros n l K s Q H. unfold record_pat_field_list. go H. listq. eauto. Qed.
Ltac rules7 :=
  lazymatch goal with
  | |- lwp record_pat_field_list _ _ => apply y_record_pat_field_list; intros ? ? ? ? ? (? & _ & -> & ?)
  | |- _ => rules6
  end.
Ltac rules ::= rules7.
Lemma y_path_pat (Q : unit -> lst -> Prop) l K s :
  (forall c' n' l' new, lenient Pattern_ new -> (exists p, new = [TNode RECORD_PAT p]) -> Q tt (L c' n' l' (K ++ new) s)) ->
  lwp path_pat Q (L IDENT (Some L_BRACE) l K s).
Proof.
  intros H. unfold path_pat, is_path_start, expr_path. do 11 step1.
  match goal with E : Some L_BRACE = Some L_BRACE -> _ |- _ => destruct (E eq_refl) as [-> ->] end.
  repeat step1. fin H; [|eauto]. apply n_pat_record. assumption.
Qed.
Lemma y_tuple_pat_body hc hp c : (hc = true -> hp = true) ->
  yields (tuple_pat_body hc hp false) c (fun flags c' new =>
    until R_PAREN c (gives (Commas Pattern_)) flags c' new /\
    flags = (hc || negb (Nat.leb (length new) 1), hp || negb (Nat.eqb (length new) 0), false)).
Proof.
  intros Hc n l K s Q H. unfold tuple_pat_body. repeat step1; subst; try discriminate.
  - fin H. cbn [length]. rewrite !orb_false_r. split; [commas'|reflexivity].
  - assert (E : kind_eqb c DOTDOT = false).
    { destruct (kind_eqb c DOTDOT) eqn:E; [|reflexivity]. apply kind_eqb_eq in E. subst c. discriminate. }
    rewrite E. cbn [orb]. apply y_tuple_pat_call; [reflexivity|]. intros fl c2 n2 l2 new [U ->].
    rewrite <- !app_assoc. cbn [app]. apply H. split; [commas'|].
    cbn [length Nat.leb Nat.eqb negb orb]. rewrite !orb_true_r. reflexivity.
  - assert (E : kind_eqb c DOTDOT = false).
    { destruct (kind_eqb c DOTDOT) eqn:E; [|reflexivity]. apply kind_eqb_eq in E. subst c. discriminate. }
    rewrite E. cbn [orb]. apply y_tuple_pat_call; [reflexivity|]. intros fl c2 n2 l2 new [U ->].
    destruct U as [U1 U2]. destruct (U2 eq_refl) as [-> ->]. cbn [app].
    rewrite <- !app_assoc. cbn [app]. apply H. split; [commas'|].
    cbn [length Nat.leb Nat.eqb negb orb]. rewrite !orb_false_r, !orb_true_r. reflexivity.
  - fin H. cbn [length]. rewrite !orb_false_r. split; [commas'|reflexivity].
Qed.
Lemma y_tuple_pat c : yields tuple_pat c (fun _ _ new => exists p, new = [p] /\ lenient Pattern_ [p] /\ p <> TNode IDENT_PAT [name_node]).
Proof.
  intros n l K s Q H. unfold tuple_pat. repeat step1. subst.
  apply y_tuple_pat_call; [discriminate|]. intros fl c2 n2 l2 new [U ->]. cbn [orb]. destruct U as [U1 _]. unfold gives in U1.
  repeat step1. subst.
  apply y_complete; [destruct (_ && _); discriminate|destruct (_ && _); intro; discriminate|]. intros r. cbn [LenientLogic.lwp].
  fin H. eexists. split; [reflexivity|]. split; [|destruct (_ && _); discriminate].
  destruct new as [|p [|q new]]; cbn [length Nat.leb Nat.eqb negb andb app].
  - apply (n_pat_tuple []); [constructor|discriminate].
  - apply n_pat_paren. inversion U1; subst; assumption.
  - apply (n_pat_tuple (p :: q :: new)); [exact U1|discriminate].
Qed.
Ltac rules8 :=
  lazymatch goal with
  | |- lwp tuple_pat _ _ => apply y_tuple_pat; intros ? ? ? ? ? (? & -> & ? & ?)
  | |- lwp ident_pat _ _ => apply y_ident_pat_at; intros ? ? ? ? ? ?
  | |- lwp path_pat _ _ => apply y_path_pat; intros ? ? ? ? ? (? & ->)
  | |- _ => rules7
  end.
Ltac rules ::= rules8.
Lemma y_pattern_body c : yields pattern_body c (fun _ c' new => exists p, new = [p] /\ lenient Pattern_ [p] /\
  (plain = true -> p = TNode IDENT_PAT [name_node] -> c' <> L_BRACE)).
Proof.
  intros n l K s Q H. unfold pattern_body, rest_pat, wildcard_pat. go H.
  all: eexists; split; [reflexivity|]; split; [first [assumption|constructor; assumption]|].
  all: intros Pl X; try discriminate X; try contradiction.
  all: match goal with E : _ -> _ = IDENT /\ _ |- _ => destruct (E X) as [Y Z]; try discriminate Y; intros Ec; specialize (Z Pl Ec _ eq_refl); congruence end.
Qed.

(** ** Atoms *)
Lemma y_bump_address c : yields bump_address c (fun b _ new => b = true -> exists a, new = [a] /\ lenient AddressName [a]).
Proof.
  intros n l K s Q H. unfold bump_address. go H.
  all: try discriminate.
  all: try (intros _; eexists; split; [reflexivity|constructor]).
  apply y_bump_remap_address; [reflexivity|]. intros c'. cbn [LenientLogic.lwp]. fin H.
  intros _; eexists; split; [reflexivity|constructor].
Qed.
Ltac rules9 :=
  lazymatch goal with
  | |- lwp bump_address _ _ => apply y_bump_address; intros ? ? ? ? ? ?
  | |- _ => rules8
  end.
Ltac rules ::= rules9.
Ltac address := match goal with E : true = true -> _ |- _ => destruct (E eq_refl) as (? & -> & ?); clear E end.
Lemma y_literal (Q : option cmark -> lst -> Prop) c n l K s :
  (kind_in c LITERAL_FIRST = false -> Q None (L c n l K s)) ->
  (forall d c' n' f, lenient Atom [TNode LITERAL f] -> starts c (TNode LITERAL f) ->
     Q (Some d) (L c' n' (Some d) (K ++ [TNode LITERAL f]) s)) -> lwp literal Q (L c n l K s).
Proof.
  intros H1 H2. unfold literal, address_lit. repeat step1; subst; auto.
  - address. cbn [opt_tree app]. apply H2; [apply n_address_lit; assumption|]. cbn. eexists. reflexivity.
  - discriminate.
  - cbn [opt_tree app]. apply H2; [apply n_literal|eexists; reflexivity].
    rewrite kind_in_In in Heqb. cbn in Heqb |- *. intuition congruence.
Qed.

(** an expression or, at the end of the file, anything *)
Ltac noteof := repeat match goal with
  | H : ?a = EOF \/ ?b |- _ => first [ destruct H as [H|H]; [discriminate H|] | fail ]
  | H : ends _ _ _ |- _ => unfold ends in H
  end.
Ltac listq ::=
  unfold until, gives, ends in *;
  repeat match goal with H : _ /\ _ |- _ => destruct H end;
  repeat match goal with H : ?a = ?a -> _ |- _ => specialize (H eq_refl) end;
  repeat match goal with H : _ /\ _ |- _ => destruct H end; subst; noteof.
Lemma y_record_expr_fields_body c : yields record_expr_fields_body c (until R_BRACE c (fun _ => ends (Commas FieldInit))).
Proof.
  intros n l K s Q H. unfold record_expr_fields_body. repeat step1; subst; try discriminate.
  all: fin H; listq; split; [|intros; first [congruence|auto]].
  all: try (right; constructor; fail).
  all: repeat match goal with E : _ = EOF \/ _ |- _ => destruct E as [->|E]; [left; reflexivity|] end; right.
  all: assert (B : begins [IDENT; INTEGER_NUMBER] T' \/ True) by auto.
  - apply n_commas_more; [|assumption]. apply n_field_init. assumption.
  - apply n_commas_last. apply n_field_init. assumption.
  - apply n_commas_more; [|assumption]. apply n_field_init_short; [assumption|].
    match goal with E : starts _ T' |- _ => destruct E as [rr E]; exists c, rr; split; [exact E|] end.
    apply orb_true_iff in Heqb1 as [E|E]; apply kind_eqb_eq in E; subst c; cbn; auto.
  - apply n_commas_last. apply n_field_init_short; [assumption|].
    match goal with E : starts _ T' |- _ => destruct E as [rr E]; exists c, rr; split; [exact E|] end.
    apply orb_true_iff in Heqb1 as [E|E]; apply kind_eqb_eq in E; subst c; cbn; auto.
Qed.
Lemma y_record_expr_field_list c : yields record_expr_field_list c (fun _ _ new => exists fs,
  new = [TNode RECORD_EXPR_FIELD_LIST (TTok L_BRACE :: fs ++ [TTok R_BRACE])] /\ lenient (Commas FieldInit) fs).
Proof. intros n l K s Q H. unfold record_expr_field_list. go H. listq. eauto. Qed.
Ltac rules10 :=
  lazymatch goal with
  | |- lwp record_expr_field_list _ _ => apply y_record_expr_field_list; intros ? ? ? ? ? (? & -> & ?)
  | |- _ => rules9
  end.
Ltac rules ::= rules10.
(** a function that makes one node *)
Definition makes (p : prog cmark) (c : kind) (P : tree -> Prop) : Prop :=
  forall n l K s (Q : cmark -> lst -> Prop),
    (forall d c' n' T, P T -> nonbin T -> starts c T -> (last_path T = true -> c' <> L_BRACE) -> Q d (L c' n' (Some d) (K ++ [T]) s)) -> lwp p Q (L c n l K s).
Ltac startq :=
  unfold starts in *; repeat match goal with E : exists _, _ |- _ => destruct E end;
  cbn [leaves flat_map opt_tree app];
  repeat match goal with E : leaves _ = _ |- _ => rewrite E end; eexists; reflexivity.
Lemma y_path_expr c : makes path_expr c (fun T => lenient Atom [T]).
Proof.
  intros n l K s Q H. unfold path_expr, is_path_start, expr_path. repeat step1.
  - fin H; [apply n_record; assumption|apply nonbin_node; discriminate|startq|discriminate].
  - fin H; [apply n_path_expr; assumption|apply nonbin_node; discriminate|startq|intros _; assumption].
Qed.
Lemma y_paren_body c : yields paren_body c (fun b c' new => b = true /\ (c' = EOF \/ Forall (fun e => lenient (Expr 1) [e]) new /\ separate new /\ begun c new) /\ (c = EOF -> c' = EOF)).
Proof.
  intros n l K s Q H. unfold paren_body. repeat step1; subst.
  - fin H. split; [reflexivity|]. split; [|auto]. right. split; [constructor|]. split; [exact I|]. discriminate.
  - apply y_paren. intros b c2 n2 l2 new (-> & E & E2). rewrite <- app_assoc. apply H. split; [reflexivity|].
    split; [|congruence]. destruct H0 as [-> |H0]; [left; auto|]. destruct E as [E|(E & E3 & E4)]; [left; exact E|]. right.
    split; [constructor; assumption|]. split; [split; [|exact E3]|].
    + intros k r Ek. apply E4 in Ek. subst k. assumption.
    + intros k r Ek. match goal with Hs : starts _ T' |- _ => destruct Hs as [rr Hs]; cbn [flat_map app] in Ek; rewrite Hs in Ek; cbn in Ek; congruence end.
  - fin H. split; [reflexivity|]. split; [|auto]. right. split; [constructor|]. split; [exact I|]. discriminate.
Qed.
Lemma y_paren_expr c : makes paren_expr c (fun T => lenient Atom [T]).
Proof.
  intros n l K s Q H. unfold paren_expr. repeat step1. subst. apply y_paren. intros b c2 n2 l2 new (-> & E & E2).
  repeat step1. subst. noteof. destruct E as (E & E3 & _). fin H; [apply n_paren; assumption|apply nonbin_node; discriminate|startq|discriminate].
Qed.
Lemma y_atom_expr (Q : option cmark -> lst -> Prop) c n l K s :
  (forall d c' n' T, lenient Atom [T] -> nonbin T -> starts c T -> (last_path T = true -> c' <> L_BRACE) -> Q (Some d) (L c' n' (Some d) (K ++ [T]) s)) ->
  lwp atom_expr Q (L c n l K s).
Proof.
  intros H. unfold atom_expr. apply lwp_bind, y_literal.
  - intros _. step1. step1. step1; [|step1; [|step1]]; apply lwp_bind.
    + apply y_path_expr. intros. cbn [LenientLogic.lwp]. auto.
    + apply y_paren_expr. intros. cbn [LenientLogic.lwp]. auto.
    + apply y_block_expr_unchecked. intros. cbn [LenientLogic.lwp]. apply H; auto; [apply n_block_expr; assumption|congruence].
    + apply y_error_skip.
  - intros. cbn [LenientLogic.lwp]. apply H; [assumption|apply nonbin_node; discriminate|assumption|discriminate].
Qed.

(** ** Expressions *)
Lemma y_args_body c : yields args_body c (fun _ c' new =>
  until R_PAREN c (fun _ => ends (Commas (Expr 1))) tt c' new /\ (c' = EOF \/ c' = R_PAREN)).
Proof.
  intros n l K s Q H. unfold args_body. repeat step1; subst; try discriminate.
  - fin H. split; [|auto]. split; [left; reflexivity|intros; discriminate].
  - noteof. apply y_args. intros a c2 n2 l2 new [[E1 E2] E3]. fin H. split; [|exact E3].
    split; [|intros; congruence]. destruct E1 as [E1|E1]; [left; exact E1|right]. apply n_commas_more; assumption.
  - noteof. apply y_args. intros a c2 n2 l2 new [[E1 E2] E3]. destruct (E2 eq_refl) as [-> ->]. fin H. split; [|exact E3].
    split; [|intros; congruence]. right. apply n_commas_last; assumption.
  - fin H. split; [|auto]. split; [right; constructor|auto].
Qed.
Lemma y_call_expr q (Q : cmark -> lst -> Prop) c n K T s : c = EOF \/ lenient Postfix [T] ->
  (forall d c' n' T', c' = EOF \/ lenient Postfix [T'] -> nonbin T' -> (forall k, starts k T -> starts k T') -> last_path T' = false ->
     Q d (L c' n' (Some d) (K ++ [T']) s)) ->
  lwp (call_expr q) Q (L c n (Some q) (K ++ [T]) s).
Proof.
  intros HT H. unfold call_expr, arg_list. repeat step1; subst. noteof.
  apply y_precede. repeat step1. apply y_args. intros a c2 n2 l2 new [[E1 _] E3]. repeat step1; subst.
  - noteof. fin H; [right; apply n_call; assumption|apply nonbin_node; discriminate|intros; startq|reflexivity].
  - destruct E3 as [-> |E3]; [|congruence]. fin H; [left; reflexivity|apply nonbin_node; discriminate|intros; startq|reflexivity].
Qed.
Lemma y_field_expr q (Q : cmark -> lst -> Prop) c n K T s : c = EOF \/ lenient Postfix [T] ->
  (forall d c' n' T', c' = EOF \/ lenient Postfix [T'] -> nonbin T' -> (forall k, starts k T -> starts k T') -> last_path T' = false ->
     Q d (L c' n' (Some d) (K ++ [T']) s)) ->
  lwp (field_expr q) Q (L c n (Some q) (K ++ [T]) s).
Proof.
  intros HT H. unfold field_expr. repeat step1; subst. noteof. apply y_precede. repeat step1.
  fin H; [right; apply n_dot; assumption|apply nonbin_node; discriminate|intros; startq|reflexivity].
Qed.
Lemma y_postfix_body q (Q : cmark -> lst -> Prop) c n K T s : c = EOF \/ lenient Postfix [T] -> nonbin T ->
  (last_path T = true -> c <> L_BRACE) ->
  (forall d c' n' T', c' = EOF \/ lenient Postfix [T'] -> nonbin T' -> (forall k, starts k T -> starts k T') -> quiet T' c' ->
     Q d (L c' n' (Some d) (K ++ [T']) s)) ->
  lwp (postfix_body q) Q (L c n (Some q) (K ++ [T]) s).
Proof.
  intros HT HN HP H. unfold postfix_body. repeat step1.
  - apply y_call_expr; [exact HT|]. intros. apply y_postfix; auto. congruence.
  - apply y_field_expr; [exact HT|]. intros. apply y_postfix; auto. congruence.
  - apply H; auto. split; [|exact HP]. cbn. intuition congruence.
Qed.

(** prefix operators bind tighter than all binary ones *)
Lemma expr_255 u : lenient (Expr 255) [u] -> lenient Unary [u].
Proof.
  intros H. inversion H; subst; [assumption|].
  match goal with E : prec _ = Some _ |- _ => destruct (prec_pos _ _ E) end. lia.
Qed.
Lemma expr_down p q u : p <= q -> lenient (Expr q) [u] -> lenient (Expr p) [u].
Proof.
  intros L H. inversion H; subst; [apply n_expr_unary; assumption|]. eapply n_expr_bin; eauto. lia.
Qed.
Lemma y_lhs (Q : option cmark -> lst -> Prop) c n l K s :
  (forall d c' n' T, c' = EOF \/ lenient Unary [T] -> nonbin T -> starts c T -> quiet T c' ->
     Q (Some d) (L c' n' (Some d) (K ++ [T]) s)) -> lwp lhs_ Q (L c n l K s).
Proof.
  intros H. unfold lhs_. apply lwp_bind, y_current. cbn [l_cur].
  destruct (kind_eqb c STAR || kind_eqb c BANG || kind_eqb c MINUS) eqn:E.
  - step1. step1. step1. step1. step1; [intros ->; discriminate E|]. intros Hc c' F. step1.
    apply y_expr_bp; [lia|]. intros d c2 n2 T' HT HB HS HP HU. repeat step1. cbn [opt_tree app].
    apply H; [|apply nonbin_node; discriminate|cbn; eexists; reflexivity|exact HU].
    destruct HT as [HT|HT]; [left; exact HT|right]. apply n_unary; [|apply expr_255; exact HT].
    destruct c; try discriminate E; cbn; auto.
  - apply lwp_bind, y_atom_expr. intros d c' n' T HT HN HS HL. apply lwp_bind.
    apply y_postfix; [right; apply n_postfix_atom; exact HT|exact HN|exact HL|].
    intros d2 c2 n2 T2 HT2 HN2 HS2 HU2. cbn [LenientLogic.lwp]. apply H; [|exact HN2|apply HS2; exact HS|exact HU2].
    destruct HT2 as [HT2|HT2]; [left; exact HT2|right]. apply n_unary_postfix. exact HT2.
Qed.
Lemma y_loop_body bp q (Q : option cmark -> lst -> Prop) c n K T s : 1 <= bp ->
  c = EOF \/ lenient (Expr bp) [T] -> binds bp T -> (forall p, prec c = Some p -> lenient (Expr p) [T] /\ binds p T) -> quiet T c ->
  (forall d c' n' T', c' = EOF \/ lenient (Expr bp) [T'] -> binds bp T' -> (forall k, starts k T -> starts k T') ->
     (forall p, prec c' = Some p -> p < bp) -> quiet T' c' -> Q (Some d) (L c' n' (Some d) (K ++ [T']) s)) ->
  lwp (expr_bp_loop_body bp q) Q (L c n (Some q) (K ++ [T]) s).
Proof.
  intros HB HT HN HP HU H. unfold expr_bp_loop_body, current_op. step1. step1. step1. step1. cbv zeta. rewrite op_prec.
  destruct (prec c) as [p|] eqn:E; cbn [fst snd].
  2: { assert (X : (0 <? bp) = true) by lia. rewrite X. cbn [LenientLogic.lwp]. apply H; auto. intros p' E'. congruence. }
  destruct (p <? bp) eqn:Lt.
  { cbn [LenientLogic.lwp]. apply H; auto. intros p' E'. assert (p' = p) by congruence. lia. }
  destruct (HP p eq_refl) as [LT BT]. destruct (prec_pos c p E) as [P1 P2].
  apply lwp_bind, y_precede. intros m. apply lwp_bind, y_bump; [intros ->; discriminate|].
  intros _ c' F. apply lwp_bind, y_expr_bp; [lia|]. intros d c2 n2 T' HT' HB' HS' HP' HU'.
  apply lwp_bind, y_complete; [discriminate| |].
  { intros _. exists T, c, T', p. cbn [opt_tree app]. auto. }
  intros d'. cbn [opt_tree app].
  apply y_loop; [exact HB| | | |exact HU'|].
  - destruct HT' as [-> |HT']; [left; reflexivity|right]. eapply n_expr_bin; [exact E|lia|exact LT|exact HT'].
  - cbn. exists p. split; [exact E|lia].
  - intros p' E'. pose proof (HP' _ E') as Lp. split; [|cbn; exists p; split; [exact E|lia]].
    destruct HT' as [-> |HT']; [discriminate E'|]. eapply n_expr_bin; [exact E|lia|exact LT|exact HT'].
  - intros d2 c3 n3 T2 HT2 HB2 HS2 HP2 HU2. apply H; auto. intros k Hk. apply HS2. startq.
Qed.

(** ** Statements *)
Lemma y_stmt_optional c : yields (stmt_semi SemiOptional) c (fun _ c' new => opt_semi new /\ (c = EOF -> c' = EOF) /\ (new = [] -> c' = c)).
Proof.
  intros n l K s Q H. unfold stmt_semi. repeat step1; subst; try discriminate; fin H; unfold opt_semi; auto.
  split; [auto|]. split; discriminate.
Qed.
Ltac rules11 :=
  lazymatch goal with
  | |- lwp (stmt_semi SemiOptional) _ _ => apply y_stmt_optional; intros ? ? ? ? ? (? & ? & ?)
  | |- _ => rules10
  end.
Ltac rules ::= rules11.
(** a statement with the token [c] after it *)
Definition stmt_tree (c : kind) (x : tree) : Prop := forall ss, begun c ss -> lenient Stmts ss -> lenient Stmts (x :: ss).
Lemma let_tree c c0 x a i s : lenient Pattern_ [x] -> lenient TypeAnnot a -> lenient Init i -> opt_semi s -> (s = [] -> c = c0) ->
  ~ let_takes plain (TTok LET_KW :: x :: a ++ i) c0 ->
  stmt_tree c (TNode LET_STMT (TTok LET_KW :: x :: a ++ i ++ s)).
Proof.
  intros H1 H2 H3 H4 H5 H6 ss B H. replace (TTok LET_KW :: x :: a ++ i ++ s) with ((TTok LET_KW :: x :: a ++ i) ++ s)
    by (cbn [app]; rewrite <- app_assoc; reflexivity).
  apply n_stmts_let; [|exact H4| |exact H]; [apply n_let; assumption|].
  intros Es k r Ek. apply B in Ek. subst k. rewrite (H5 Es). exact H6.
Qed.
Lemma let_takes_init l e c : ~ takes e c -> ~ let_takes plain (l ++ [TTok EQ; e]) c.
Proof.
  intros H [(l' & e' & E & T)|(_ & E & _)].
  - change ([TTok EQ; e]) with ([TTok EQ] ++ [e]) in E. change ([TTok EQ; e']) with ([TTok EQ] ++ [e']) in E.
    rewrite !app_assoc in E. apply app_inj_tail in E as [_ <-]. exact (H T).
  - destruct l as [|a [|b [|d l]]]; discriminate E.
Qed.
Lemma let_takes_bare l x c : (forall l', l <> l' ++ [TTok EQ]) -> (plain = true -> l ++ [x] = [TTok LET_KW; TNode IDENT_PAT [name_node]] -> c <> L_BRACE) ->
  ~ let_takes plain (l ++ [x]) c.
Proof.
  intros N H [(l' & e' & E & T)|(P & E & C)].
  - change ([TTok EQ; e']) with ([TTok EQ] ++ [e']) in E. rewrite app_assoc in E. apply app_inj_tail in E as [E _]. exact (N _ E).
  - exact (H P E C).
Qed.
Lemma no_eq (l : list tree) k : k <> EQ -> forall l', l ++ [TTok k] <> l' ++ [TTok EQ].
Proof. intros H l' E. apply app_inj_tail in E as [_ E]. congruence. Qed.
Lemma y_stmt c : yields (stmt SemiOptional) c (fun _ c' new => exists x, new = [x] /\ (c' = EOF \/ stmt_tree c' x /\ starts c x)).
Proof.
  intros n l K s Q H. unfold stmt, let_stmt. repeat step1; subst; try discriminate.
  all: fin H; eexists; split; [reflexivity|].
  all: try match goal with E : _ = EOF \/ lenient _ _ |- _ => destruct E as [->|E]; [left; auto; fail|] end; right.
  all: (split; [|first [(cbn; eexists; reflexivity)|startq]]).
  - eapply (let_tree _ _ x [TTok COLON; x0] [TTok EQ; T']); [assumption|constructor; assumption..|assumption|eassumption|].
    apply (let_takes_init [TTok LET_KW; x; TTok COLON; x0]). assumption.
  - eapply (let_tree _ _ x [TTok COLON; x0] []); [assumption|constructor; assumption..|assumption|eassumption|].
    apply (let_takes_bare [TTok LET_KW; x; TTok COLON]); [apply (no_eq [TTok LET_KW; x]); discriminate|discriminate].
  - eapply (let_tree _ _ x [] [TTok EQ; T']); [assumption|constructor; assumption..|assumption|eassumption|].
    apply (let_takes_init [TTok LET_KW; x]). assumption.
  - eapply (let_tree _ _ x [] []); [assumption|constructor; assumption..|assumption|eassumption|].
    apply (let_takes_bare [TTok LET_KW]); [apply (no_eq []); discriminate|]. intros Pl E. injection E as ->. auto.
  - intros ss B Hs. apply n_stmts_expr; [assumption|assumption| |assumption].
    intros Es k rr Ek. apply B in Ek. subst k. match goal with E : _ -> ?c = ?d |- context [takes _ ?c] => rewrite (E Es) end. assumption.
Qed.
Lemma y_block_contents_body c : yields block_contents_body c (fun _ c' new => (c' = EOF \/ lenient Stmts new /\ begun c new) /\ (c = EOF -> c' = EOF)).
Proof.
  intros n l K s Q H. unfold block_contents_body. repeat step1; subst; try discriminate.
  1: fin H; split; [right; split; [constructor|discriminate]|discriminate].
  1: fin H; split; [right; split; [constructor|discriminate]|auto].
  apply y_stmt. intros a c2 n2 l2 new (x & -> & E).
  apply y_block_contents. intros a2 c3 n3 l3 new2 [E1 E2]. fin H. split; [|congruence].
  destruct E as [-> |[E E3]]; [left; auto|]. destruct E1 as [E1|[E1 E4]]; [left; exact E1|right]. split; [apply E; assumption|].
  destruct E3 as [r E3]. intros k' r' Ek. cbn [flat_map] in Ek. rewrite E3 in Ek. cbn in Ek. congruence.
Qed.

(** ** Items *)
Lemma y_record_fields_body c : yields record_fields_body c (until R_BRACE c (gives (Commas Field))).
Proof.
  intros n l K s Q H. unfold record_fields_body, record_field. repeat step1; subst; try discriminate.
  all: fin H; commas.
Qed.
Lemma y_record_field_list c : yields record_field_list c (gives StructBody).
Proof. intros n l K s Q H. unfold record_field_list. go H. listq. apply n_struct_fields. assumption. Qed.
Lemma y_opt_ret_type c : yields opt_ret_type c (gives RetType).
Proof. intros n l K s Q H. unfold opt_ret_type. go H; constructor; assumption. Qed.
Ltac rules12 :=
  lazymatch goal with
  | |- lwp record_field_list _ _ => use y_record_field_list
  | |- lwp opt_ret_type _ _ => use y_opt_ret_type
  | |- _ => rules11
  end.
Ltac rules ::= rules12.
Lemma y_item c : yields item c (fun _ _ new => exists x, new = [x] /\ lenient Item [x]).
Proof.
  intros n l K s Q H. unfold item, opt_item, function_def, struct_. go H.
  all: eexists; split; [reflexivity|].
  - apply n_item_fun. apply n_function; assumption.
  - apply n_item_struct. apply (n_struct _ _); assumption.
  - apply n_item_struct. apply (n_struct _ [TTok SEMICOLON]); [assumption|constructor].
Qed.
Ltac rules13 :=
  lazymatch goal with
  | |- lwp item _ _ => apply y_item; intros ? ? ? ? ? (? & -> & ?)
  | |- _ => rules12
  end.
Ltac rules ::= rules13.
Lemma y_items_body c : yields items_body c (gives Items).
Proof. intros n l K s Q H. unfold items_body. go H; constructor; assumption. Qed.
Lemma y_item_list c : yields item_list c (fun _ _ new => exists is,
  new = [TNode ITEM_LIST (TTok L_BRACE :: is ++ [TTok R_BRACE])] /\ lenient Items is).
Proof. intros n l K s Q H. unfold item_list. go H. eauto. Qed.
Lemma y_address_ident_r r c : yields (address_ident_r r) c (fun _ _ new => exists a,
  new = [TNode ADDRESS_IDENT [a]] /\ lenient AddressName [a]).
Proof. intros n l K s Q H. unfold address_ident_r. go H. address. eauto. Qed.
Ltac rules14 :=
  lazymatch goal with
  | |- lwp item_list _ _ => apply y_item_list; intros ? ? ? ? ? (? & -> & ?)
  | |- lwp (address_ident_r _) _ _ => apply y_address_ident_r; intros ? ? ? ? ? (? & -> & ?)
  | |- _ => rules13
  end.
Ltac rules ::= rules14.
Lemma y_module c : yields module c (fun _ _ new => exists x, new = [x] /\ lenient Module [x]).
Proof.
  intros n l K s Q H. unfold module. go H.
  all: eexists; split; [reflexivity|].
  all: first [apply n_module_at; [assumption|]|apply n_module]; constructor; assumption.
Qed.
Ltac rules15 :=
  lazymatch goal with
  | |- lwp module _ _ => apply y_module; intros ? ? ? ? ? (? & -> & ?)
  | |- _ => rules14
  end.
Ltac rules ::= rules15.
Lemma y_address_items_body c : yields address_items_body c (gives Modules).
Proof. intros n l K s Q H. unfold address_items_body. go H; constructor; assumption. Qed.
Lemma y_address_item_list c : yields address_item_list c (fun _ _ new => exists ms,
  new = [TNode ADDRESS_ITEM_LIST (TTok L_BRACE :: ms ++ [TTok R_BRACE])] /\ lenient Modules ms).
Proof. intros n l K s Q H. unfold address_item_list. go H. eauto. Qed.
Ltac rules16 :=
  lazymatch goal with
  | |- lwp address_item_list _ _ => apply y_address_item_list; intros ? ? ? ? ? (? & -> & ?)
  | |- _ => rules15
  end.
Ltac rules ::= rules16.
Lemma y_script c : yields script c (fun _ _ new => exists x, new = [TNode SCRIPT_DEF x] /\ lenient TopItem [TNode SCRIPT_DEF x]).
Proof. intros n l K s Q H. unfold script. go H; eexists; split; try reflexivity; constructor; assumption. Qed.
Lemma y_address c : yields address c (fun _ _ new => exists x, new = [TNode ADDRESS_DEF x] /\ lenient TopItem [TNode ADDRESS_DEF x]).
Proof. intros n l K s Q H. unfold address. go H; eexists; split; try reflexivity; constructor; assumption. Qed.
Ltac rules17 :=
  lazymatch goal with
  | |- lwp script _ _ => apply y_script; intros ? ? ? ? ? (? & -> & ?)
  | |- lwp address _ _ => apply y_address; intros ? ? ? ? ? (? & -> & ?)
  | |- lwp (call F_root) _ _ => apply y_root; intros ? ? ? ? ? ?
  | |- _ => rules16
  end.
Ltac rules ::= rules17.
Lemma module_not_blank x : lenient Module [x] -> not_blank x = true.
Proof. intros H. inversion H; reflexivity. Qed.
Lemma y_root_body c : yields root_body c (fun _ _ new => lenient File (filter not_blank new)).
Proof.
  intros n l K s Q H. unfold root_body. go H; cbn [filter not_blank].
  - constructor.
  - rewrite module_not_blank by assumption. constructor; [apply n_top_module|]; assumption.
  - constructor; assumption.
  - constructor; assumption.
  - match goal with E : is_trivia _ = true |- _ => rewrite E end. cbn [negb]. assumption.
Qed.

(** ** All of them *)
Lemma yields_grows f c n l K s (P : fn_ret f -> kind -> forest -> Prop) (R : fn_ret f -> lst -> Prop) : yields (body f) c P ->
  (forall a st', lgrows (P a) (L c n l K s) st' -> R a st') ->
  lwp (body f) R (L c n l K s).
Proof.
  intros Y H. apply Y. intros a c' n' l' new HP. apply H. split; [reflexivity|]. exists new. split; [reflexivity|exact HP].
Qed.
Ltac body f H := apply (yields_grows f _ _ _ _ _ _ _ H); intros ? ? Hg; exact Hg.
Theorem lbody_sound f st : lpre f st -> lwp (body f) (lpost f st) st.
Proof.
  intros P. destruct st as [c n l K s]. destruct f; cbn [LenientLogic.lpre] in P; try (destruct P; fail).
  - body F_root (y_root_body c).
  - body F_address_items (y_address_items_body c).
  - body F_items (y_items_body c).
  - body F_record_fields (y_record_fields_body c).
  - body F_generic_params (y_generic_params_body c).
  - body F_bounds (y_bounds_body c).
  - body F_params (y_params_body c).
  - destruct P as (f0 & t & [P1 P2] & P3). cbn [l_last l_kids] in *. subst. cbn [body].
    apply y_path_for_qualifier_body; [exact P3|]. intros. cbn [LenientLogic.lpost l_stack l_kids l_cur]. split; [reflexivity|].
    exists f0, t, T'. auto 6.
  - body F_type (y_type_body c).
  - body F_block_contents (y_block_contents_body c).
  - cbn [body]. unfold expr_bp_body. apply lwp_bind, y_lhs. intros d c' n' T HT HN HS HU.
    assert (X : forall p, c' = EOF \/ lenient (Expr p) [T]).
    { intros p. destruct HT as [HT|HT]; [left; exact HT|right; apply n_expr_unary; exact HT]. }
    apply y_loop; [exact P|apply X|apply HN| |exact HU|].
    + intros p E. split; [|apply HN]. destruct (X p) as [-> |Y]; [discriminate E|exact Y].
    + intros d' c2 n2 T' HT' HB' HS' HP' HU'. cbn [LenientLogic.lpost l_stack l_kids l_cur]. split; [reflexivity|].
      exists d', T'. split; [reflexivity|]. split; [split; reflexivity|]. auto.
  - destruct P as (P0 & f0 & t & [P1 P2] & P3 & P4 & P5 & P6). cbn [l_last l_kids l_cur] in *. subst. cbn [body].
    apply y_loop_body; auto. intros d' c2 n2 T' HT' HB' HS' HP' HU'. cbn [LenientLogic.lpost l_stack l_kids l_cur]. split; [reflexivity|].
    exists f0, t, d', T'. split; [reflexivity|]. split; [reflexivity|]. split; [split; reflexivity|]. auto.
  - destruct P as (f0 & t & [P1 P2] & P3 & P4 & P5). cbn [l_last l_kids l_cur] in *. subst. cbn [body].
    apply y_postfix_body; auto. intros d' c2 n2 T' HT' HN' HS' HU'. cbn [LenientLogic.lpost l_stack l_kids l_cur]. split; [reflexivity|].
    exists f0, t, T'. split; [reflexivity|]. split; [split; reflexivity|]. auto.
  - cbn [body]. apply y_args_body. intros a c' n' l' new [HP HC]. cbn [LenientLogic.lpost]. split; [|exact HC].
    split; [reflexivity|]. exists new. split; [reflexivity|exact HP].
  - cbn [body]. apply y_paren_body. intros a c' n' l' new [-> HP]. cbn [LenientLogic.lpost]. split; [reflexivity|].
    split; [reflexivity|]. exists new. split; [reflexivity|exact HP].
  - body F_record_expr_fields (y_record_expr_fields_body c).
  - body F_pattern (y_pattern_body c).
  - destruct P as [-> P]. cbn [body]. apply y_tuple_pat_body; [exact P|]. intros a c' n' l' new [HP ->]. cbn [LenientLogic.lpost].
    eexists _, _. split; [reflexivity|]. split; [reflexivity|]. exists new. split; [reflexivity|]. auto.
  - body F_record_pat_fields (y_record_pat_fields_body c).
Qed.
End Proofs.
