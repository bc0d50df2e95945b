(** Every grammar function of Grammar.v satisfies its contract of ParserLogic.v. *)
From Coq Require Import String.
From Verif Require Import Base BaseProofs Kinds KindsProofs TokenSet Lexer LexerProofs LexerStateProofs
  Parser Grammar TreeSpec ParserLogic.
Local Open Scope N_scope.

(** ** Rules for the helpers of Parser.v *)
Lemma wp_at k (Q : bool -> ast -> Prop) st : Q (kind_eqb (a_cur st) k) st -> wp (at_ k) Q st.
Proof. intros H. exact H. Qed.
Lemma wp_nth_at n k (Q : bool -> ast -> Prop) st : (forall b, Q b st) -> wp (nth_at (S n) k) Q st.
Proof. intros H. cbn. intros x. apply H. Qed.
Lemma wp_nth n (Q : kind -> ast -> Prop) st : (forall b, Q b st) -> wp (nth_ (S n)) Q st.
Proof. intros H. cbn. intros x. apply H. Qed.
Lemma wp_current (Q : kind -> ast -> Prop) st : Q (a_cur st) st -> wp current Q st.
Proof. intros H. exact H. Qed.
Lemma wp_current_text (Q : text -> ast -> Prop) st : (forall x, Q x st) -> wp current_text Q st.
Proof. intros H. exact H. Qed.
Lemma wp_at_ts ts (Q : bool -> ast -> Prop) st : Q (kind_in (a_cur st) ts) st -> wp (at_ts ts) Q st.
Proof. intros H. unfold at_ts. cbn. rewrite ts_has_spec. exact H. Qed.
Lemma wp_start (Q : nat -> ast -> Prop) c l K s : (forall m, Q m (Ast c None [] (Open m None K :: s))) -> wp start Q (Ast c l K s).
Proof. intros H. exact H. Qed.
Lemma wp_error msg (Q : unit -> ast -> Prop) c l K s : Q tt (Ast c None (K ++ [TErr msg]) s) -> wp (error msg) Q (Ast c l K s).
Proof. intros H. exact H. Qed.
Lemma wp_complete m k (Q : cmark -> ast -> Prop) c l K i B s : k <> TOMBSTONE -> node_ok k (opt_tree i ++ K) ->
  (forall r, Q r (Ast c (Some r) (B ++ [TNode k (opt_tree i ++ K)]) s)) ->
  wp (complete m k) Q (Ast c l K (Open m i B :: s)).
Proof. intros H1 H2 H. cbn. auto. Qed.
Lemma wp_abandon m (Q : unit -> ast -> Prop) c l K B s : Q tt (Ast c None (B ++ K) s) ->
  wp (abandon m) Q (Ast c l K (Open m None B :: s)).
Proof. intros H. cbn. auto. Qed.
Lemma wp_precede q (Q : nat -> ast -> Prop) c K T s : (forall m, Q m (Ast c None [] (Open m (Some T) K :: s))) ->
  wp (precede q) Q (Ast c (Some q) (K ++ [T]) s).
Proof. intros H. cbn. split; [reflexivity|]. exists K, T. split; [reflexivity|exact H]. Qed.
Lemma wp_assert_p p (Q : unit -> ast -> Prop) st : wp p (fun b st' => b = true -> Q tt st') st -> wp (assert_p p) Q st.
Proof. intros H. unfold assert_p. apply wp_bind. cbn. exact H. Qed.

Lemma remap_refl k : remap k k.
Proof. left. reflexivity. Qed.

Lemma wp_eat k (Q : bool -> ast -> Prop) c l K s : k <> EOF ->
  (c = k -> forall c', is_trivia c' = false -> Q true (Ast c' None (K ++ [TTok k]) s)) ->
  (c <> k -> Q false (Ast c l K s)) -> wp (eat k) Q (Ast c l K s).
Proof.
  intros Hk H1 H2. unfold eat. apply wp_bind. apply wp_at. cbn [a_cur].
  destruct (kind_eqb c k) eqn:E.
  - apply kind_eqb_eq in E. subst c. cbn. split; [apply remap_refl|]. split; [exact Hk|]. auto.
  - apply kind_eqb_neq in E. apply H2. exact E.
Qed.
Lemma wp_bump k (Q : unit -> ast -> Prop) c l K s : k <> EOF ->
  (c = k -> forall c', is_trivia c' = false -> Q tt (Ast c' None (K ++ [TTok k]) s)) ->
  wp (bump k) Q (Ast c l K s).
Proof. intros Hk H. unfold bump. apply wp_assert_p. apply wp_eat; [exact Hk|auto|]. intros _ E. discriminate. Qed.
Lemma wp_expect k (Q : bool -> ast -> Prop) c l K s : k <> EOF ->
  (c = k -> forall c', is_trivia c' = false -> Q true (Ast c' None (K ++ [TTok k]) s)) ->
  (c <> k -> forall msg, Q false (Ast c None (K ++ [TErr msg]) s)) -> wp (expect k) Q (Ast c l K s).
Proof.
  intros Hk H1 H2. unfold expect. apply wp_bind. apply wp_eat; [exact Hk|auto|].
  intros E. apply wp_bind. apply wp_error. cbn [wp]. auto.
Qed.
Lemma wp_bump_any (Q : unit -> ast -> Prop) c l K s :
  (c = EOF -> Q tt (Ast c l K s)) ->
  (c <> EOF -> forall c', is_trivia c' = false -> Q tt (Ast c' None (K ++ [TTok c]) s)) ->
  wp bump_any Q (Ast c l K s).
Proof.
  intros H1 H2. unfold bump_any. apply wp_bind. apply wp_current. cbn [a_cur].
  destruct (kind_eqb c EOF) eqn:E.
  - apply kind_eqb_eq in E. apply H1. exact E.
  - apply kind_eqb_neq in E. cbn. split; [apply remap_refl|]. split; [exact E|]. auto.
Qed.
Lemma wp_bump_remap_address (Q : unit -> ast -> Prop) c l K s : c = INTEGER_NUMBER ->
  (forall c', is_trivia c' = false -> Q tt (Ast c' None (K ++ [TTok DIEM_ADDRESS]) s)) ->
  wp (bump_remap DIEM_ADDRESS) Q (Ast c l K s).
Proof.
  intros -> H. cbn. split; [right; auto|]. split; [discriminate|exact H].
Qed.

(** ** Automation *)
Lemma app_cons_assoc {A} (a : list A) x b : (a ++ [x]) ++ b = a ++ x :: b.
Proof. rewrite <- app_assoc. reflexivity. Qed.
Ltac new_ :=
  first [ exists (@nil tree); symmetry; apply app_nil_r
        | eexists; rewrite <- ?app_assoc; reflexivity ].
Ltac ng := try discriminate; try (intro; discriminate).
Ltac grow H :=
  match type of H with
  | grows _ ?st' => let c := fresh "c" in let l := fresh "l" in
      destruct st' as [c l ? ?]; destruct H as [H [? ?]]; cbn [a_stack a_kids] in *; subst
  end.
Ltac plain_call :=
  unfold type_, pattern, block_contents, expr_block_contents; unfold call; cbn [wp pre];
  split; [first [exact I|idtac]|];
  let b := fresh "b" in let st := fresh "st" in let H := fresh "H" in
  intros b st H; cbn [post] in H; grow H.
Ltac rules0 := fail.
Ltac rules := rules0.
Ltac step1 :=
  match goal with
  | |- forall _, _ => intro
  | |- wp (pbind _ _) _ _ => apply wp_bind
  | |- wp (Ret _) _ _ => cbn [wp]
  | |- wp (if ?b then _ else _) _ _ => destruct b eqn:?
  | |- wp (let _ := _ in _) _ _ => cbv zeta
  | |- wp (andp _ _) _ _ => unfold andp
  | |- wp (orp _ _) _ _ => unfold orp
  | |- wp (notp _) _ _ => unfold notp
  | |- wp (assert_p _) _ _ => apply wp_assert_p
  | |- wp (at_ _) _ _ => apply wp_at
  | |- wp (at_ts _) _ _ => apply wp_at_ts
  | |- wp (nth_at _ _) _ _ => apply wp_nth_at
  | |- wp (nth_ _) _ _ => apply wp_nth
  | |- wp current _ _ => apply wp_current; cbn [a_cur]
  | |- wp current_text _ _ => apply wp_current_text
  | |- wp start _ _ => apply wp_start
  | |- wp (error _) _ _ => apply wp_error
  | |- wp (abandon _) _ _ => apply wp_abandon
  | |- wp (eat _) _ _ => apply wp_eat; [discriminate| |]
  | |- wp (bump _) _ _ => apply wp_bump; [discriminate|]
  | |- wp (expect _) _ _ => apply wp_expect; [discriminate| |]
  | |- wp bump_any _ _ => apply wp_bump_any
  | |- wp (complete _ _) _ _ => apply wp_complete; [discriminate|intro; discriminate|]
  | |- _ => rules
  end.

(** A function that only adds to the current forest. *)
Definition adds {A} (p : prog A) : Prop :=
  forall c l K s (Q : A -> ast -> Prop),
    (forall a c' l' new, Q a (Ast c' l' (K ++ new) s)) -> wp p Q (Ast c l K s).
Ltac addsq H :=
  first [ rewrite <- ?app_assoc; apply H
        | match goal with |- ?Q ?a (Ast ?c ?l ?K ?s) =>
            let E := fresh in pose proof (H a c l []) as E; rewrite app_nil_r in E; exact E end ].

Ltac solve_adds :=
  let c := fresh "c" in let l := fresh "l" in let K := fresh "K" in let s := fresh "s" in
  let Q := fresh "Q" in let H := fresh "HQ" in
  intros c l K s Q H;
  repeat step1;
  try (cbn [opt_tree app]; addsq H).

Lemma adds_err_recover msg r : adds (err_recover msg r).
Proof. unfold err_recover. solve_adds. Qed.

Lemma adds_grow f : (forall st, pre f st) -> (forall st b st', post f st b st' -> grows st st') -> adds (call f).
Proof.
  intros P1 P2 c l K s Q H. unfold call. cbn [wp]. split; [apply P1|].
  intros b st Hb. apply P2 in Hb. grow Hb. apply H.
Qed.
Lemma adds_skip ts : In EOF ts -> adds (call (F_skip_until ts)).
Proof. intros H. apply adds_grow; auto. Qed.
Lemma post_expr_grows bp st b st' : post (F_expr_bp bp) st b st' -> grows st st'.
Proof.
  intros (H1 & c & t' & _ & [_ H2] & _). split; [exact H1|]. exists [t']. exact H2.
Qed.
Lemma adds_expr_bp bp : 1 <= bp -> adds (call (F_expr_bp bp)).
Proof. intros H. apply adds_grow; [intros; exact H|apply post_expr_grows]. Qed.
Lemma adds_expr : adds expr.
Proof. apply (adds_expr_bp 1). lia. Qed.
Ltac rec_call :=
  match goal with
  | |- wp type_ _ _ => apply (adds_grow F_type); [exact (fun _ => I)|auto|]
  | |- wp pattern _ _ => apply (adds_grow F_pattern); [exact (fun _ => I)|auto|]
  | |- wp block_contents _ _ => apply (adds_grow F_block_contents); [exact (fun _ => I)|auto|]
  | |- wp expr_block_contents _ _ => apply (adds_grow F_expr_block_contents); [exact (fun _ => I)|auto|]
  | |- wp expr _ _ => apply adds_expr
  | |- wp (call (F_expr_bp _)) _ _ => apply adds_expr_bp; [lia|]
  | |- wp (call (F_skip_until _)) _ _ => apply adds_skip; [apply in_or_app; right; left; reflexivity|]
  | |- wp (call ?f) _ _ => apply (adds_grow f); [exact (fun _ => I)|auto|]
  end.
Ltac rules ::= rec_call.

Lemma adds_error_skip msg ts : adds (error_and_skip_until msg ts).
Proof. unfold error_and_skip_until. solve_adds. Qed.
Lemma adds_err_and_bump msg : adds (err_and_bump msg).
Proof. unfold err_and_bump. apply adds_err_recover. Qed.
Ltac rules1 :=
  lazymatch goal with
  | |- wp (err_recover _ _) _ _ => apply adds_err_recover
  | |- wp (error_and_skip_until _ _) _ _ => apply adds_error_skip
  | |- wp (err_and_bump _) _ _ => apply adds_err_and_bump
  | |- _ => rec_call
  end.
Ltac rules ::= rules1.
Lemma adds_name_r r : adds (name_r r). Proof. unfold name_r. solve_adds. Qed.
Lemma adds_name : adds name. Proof. unfold name. apply adds_name_r. Qed.
Lemma adds_name_ref : adds name_ref. Proof. unfold name_ref. solve_adds. Qed.
Lemma adds_block_expr_unchecked : adds block_expr_unchecked. Proof. unfold block_expr_unchecked. solve_adds. Qed.
Lemma adds_block_expr : adds block_expr.
Proof. unfold block_expr. intros c l K s Q H. repeat step1.  addsq H. apply adds_block_expr_unchecked. intros. cbn [wp]. apply H. Qed.
Lemma adds_error_block msg : adds (error_block msg). Proof. unfold error_block. solve_adds. Qed.
Ltac rules2 :=
  lazymatch goal with
  | |- wp name _ _ => apply adds_name
  | |- wp (name_r _) _ _ => apply adds_name_r
  | |- wp name_ref _ _ => apply adds_name_ref
  | |- wp block_expr _ _ => apply adds_block_expr
  | |- wp (error_block _) _ _ => apply adds_error_block
  | |- _ => rules1
  end.
Ltac rules ::= rules2.
Lemma adds_path_segment first : adds (path_segment first). Proof. unfold path_segment. solve_adds. Qed.
Lemma wp_path_for_qualifier q (Q : unit -> ast -> Prop) c K T s : (forall c' l' T', Q tt (Ast c' l' (K ++ [T']) s)) ->
  wp (call (F_path_for_qualifier q)) Q (Ast c (Some q) (K ++ [T]) s).
Proof.
  intros H. unfold call. cbn [wp pre]. split; [exists K, T; split; reflexivity|].
  intros [] [c' l' K' s'] (H1 & f0 & t & t' & H2 & H3). cbn [a_kids a_stack] in *. subst.
  apply app_inj_tail in H2 as [<- <-]. apply H.
Qed.
Lemma adds_path : adds path.
Proof.
  unfold path. intros c l K s Q H. apply wp_bind, wp_start. intros m. apply wp_bind, adds_path_segment. intros.
  apply wp_bind. repeat step1. apply wp_path_for_qualifier. intros. apply H.
Qed.
Ltac rules3 :=
  lazymatch goal with
  | |- wp (path_segment _) _ _ => apply adds_path_segment
  | |- wp path _ _ => apply adds_path
  | |- _ => rules2
  end.
Ltac rules ::= rules3.
Lemma adds_ref_type : adds ref_type. Proof. unfold ref_type. solve_adds. Qed.
Lemma adds_path_type : adds path_type. Proof. unfold path_type, is_path_start, type_path. solve_adds. Qed.
Lemma adds_ascription : adds ascription. Proof. unfold ascription. solve_adds. Qed.
Ltac rules4 :=
  lazymatch goal with
  | |- wp ref_type _ _ => apply adds_ref_type
  | |- wp path_type _ _ => apply adds_path_type
  | |- wp ascription _ _ => apply adds_ascription
  | |- _ => rules3
  end.
Ltac rules ::= rules4.
Lemma adds_type_body : adds type_body. Proof. unfold type_body, is_path_start. solve_adds. Qed.
Lemma adds_params_body : adds params_body. Proof. unfold params_body, param. solve_adds. Qed.
Lemma adds_param_list : adds param_list. Proof. unfold param_list. solve_adds. Qed.
Lemma adds_type_bound : adds type_bound. Proof. unfold type_bound. solve_adds. Qed.
Ltac rules5 :=
  lazymatch goal with
  | |- wp param_list _ _ => apply adds_param_list
  | |- wp type_bound _ _ => apply adds_type_bound
  | |- _ => rules4
  end.
Ltac rules ::= rules5.
Lemma adds_bounds_body : adds bounds_body. Proof. unfold bounds_body. solve_adds. Qed.
Lemma adds_bounds : adds bounds. Proof. unfold bounds, bounds_without_colon, bounds_without_colon_m. solve_adds. Qed.
Ltac rules6 :=
  lazymatch goal with
  | |- wp bounds _ _ => apply adds_bounds
  | |- _ => rules5
  end.
Ltac rules ::= rules6.
Lemma adds_generic_param : adds generic_param. Proof. unfold generic_param, type_param. solve_adds. Qed.
Ltac rules7 :=
  lazymatch goal with
  | |- wp generic_param _ _ => apply adds_generic_param
  | |- _ => rules6
  end.
Ltac rules ::= rules7.
Lemma adds_generic_params_body : adds generic_params_body. Proof. unfold generic_params_body. solve_adds. Qed.
Lemma adds_generic_param_list : adds generic_param_list. Proof. unfold generic_param_list. solve_adds. Qed.
Ltac rules8 :=
  lazymatch goal with
  | |- wp generic_param_list _ _ => apply adds_generic_param_list
  | |- _ => rules7
  end.
Ltac rules ::= rules8.
Lemma adds_opt_generic_param_list : adds opt_generic_param_list. Proof. unfold opt_generic_param_list. solve_adds. Qed.
Lemma adds_ident_pat : adds ident_pat. Proof. unfold ident_pat. solve_adds. Qed.
Lemma adds_rest_pat : adds rest_pat. Proof. unfold rest_pat. solve_adds. Qed.
Lemma adds_wildcard_pat : adds wildcard_pat. Proof. unfold wildcard_pat. solve_adds. Qed.
Ltac rules9 :=
  lazymatch goal with
  | |- wp opt_generic_param_list _ _ => apply adds_opt_generic_param_list
  | |- wp ident_pat _ _ => apply adds_ident_pat
  | |- wp rest_pat _ _ => apply adds_rest_pat
  | |- wp wildcard_pat _ _ => apply adds_wildcard_pat
  | |- _ => rules8
  end.
Ltac rules ::= rules9.
Lemma adds_record_pat_field : adds record_pat_field. Proof. unfold record_pat_field. solve_adds. Qed.
Ltac rules10 :=
  lazymatch goal with
  | |- wp record_pat_field _ _ => apply adds_record_pat_field
  | |- _ => rules9
  end.
Ltac rules ::= rules10.
Lemma adds_record_pat_fields_body : adds record_pat_fields_body. Proof. unfold record_pat_fields_body. solve_adds. Qed.
Lemma adds_record_pat_field_list : adds record_pat_field_list. Proof. unfold record_pat_field_list. solve_adds. Qed.
Ltac rules11 :=
  lazymatch goal with
  | |- wp record_pat_field_list _ _ => apply adds_record_pat_field_list
  | |- _ => rules10
  end.
Ltac rules ::= rules11.
Lemma adds_path_pat : adds path_pat. Proof. unfold path_pat, is_path_start, expr_path. solve_adds. Qed.
Lemma adds_tuple_pat_body a b d : adds (tuple_pat_body a b d). Proof. unfold tuple_pat_body. solve_adds. Qed.
Lemma adds_tuple_pat : adds tuple_pat. Proof.
  unfold tuple_pat. intros c l K s Q H. repeat step1; destruct a as [[a b] d];
    apply wp_bind, wp_complete; destruct (negb a && negb d && b); try discriminate; try (intro; discriminate);
    intros; cbn [wp opt_tree app]; addsq H.
Qed.
Ltac rules12 :=
  lazymatch goal with
  | |- wp path_pat _ _ => apply adds_path_pat
  | |- wp tuple_pat _ _ => apply adds_tuple_pat
  | |- _ => rules11
  end.
Ltac rules ::= rules12.
Lemma adds_pattern_body : adds pattern_body. Proof. unfold pattern_body. solve_adds. Qed.

(** ** Expressions *)
Lemma nonbin_node k f : k <> BIN_EXPR -> nonbin (TNode k f).
Proof. intros H n. destruct k; try exact I. congruence. Qed.

(** A function that adds exactly one node, which is not a binary expression. *)
Definition makes (p : prog cmark) : Prop :=
  forall c l K s (Q : cmark -> ast -> Prop),
    (forall d c' k f, k <> BIN_EXPR -> Q d (Ast c' (Some d) (K ++ [TNode k f]) s)) -> wp p Q (Ast c l K s).
Ltac mkq H := first [ apply H; discriminate | cbn [wp opt_tree app]; apply H; discriminate ].
Lemma makes_block_expr_unchecked : makes block_expr_unchecked.
Proof. intros c l K s Q H. unfold block_expr_unchecked. repeat step1; mkq H. Qed.
Lemma makes_error_skip msg ts : makes (error_and_skip_until msg ts).
Proof. intros c l K s Q H. unfold error_and_skip_until. repeat step1; mkq H. Qed.

Lemma adds_bump_address : adds bump_address.
Proof.
  unfold bump_address. intros c l K s Q H. repeat step1; try addsq H.
  apply kind_eqb_eq in Heqb0. apply wp_bump_remap_address; [exact Heqb0|]. intros. cbn [wp]. addsq H.
Qed.
Ltac rules13 :=
  lazymatch goal with
  | |- wp bump_address _ _ => apply adds_bump_address
  | |- _ => rules12
  end.
Ltac rules ::= rules13.
Lemma adds_address_lit : adds address_lit. Proof. unfold address_lit. solve_adds. Qed.
Ltac rules14 :=
  lazymatch goal with
  | |- wp address_lit _ _ => apply adds_address_lit
  | |- _ => rules13
  end.
Ltac rules ::= rules14.
Lemma wp_literal (Q : option cmark -> ast -> Prop) c l K s : Q None (Ast c l K s) ->
  (forall d c' f, Q (Some d) (Ast c' (Some d) (K ++ [TNode LITERAL f]) s)) -> wp literal Q (Ast c l K s).
Proof. intros H1 H2. unfold literal. repeat step1; [exact H1|..]; cbn [wp opt_tree app]; apply H2. Qed.

Lemma adds_record_expr_fields_body : adds record_expr_fields_body.
Proof. unfold record_expr_fields_body. solve_adds. Qed.
Lemma adds_record_expr_field_list : adds record_expr_field_list.
Proof. unfold record_expr_field_list. solve_adds. Qed.
Ltac rules15 :=
  lazymatch goal with
  | |- wp record_expr_field_list _ _ => apply adds_record_expr_field_list
  | |- _ => rules14
  end.
Ltac rules ::= rules15.
Lemma makes_path_expr : makes path_expr.
Proof. intros c l K s Q H. unfold path_expr, is_path_start, expr_path. repeat step1; mkq H. Qed.
Lemma adds_paren_body : adds paren_body.
Proof.
  intros c l K s Q H. unfold paren_body. repeat step1; addsq H.
Qed.
Lemma makes_paren_expr : makes paren_expr.
Proof. intros c l K s Q H. unfold paren_expr. repeat step1; mkq H. Qed.
Lemma wp_atom_expr (Q : option cmark -> ast -> Prop) c l K s :
  (forall d c' k f, k <> BIN_EXPR -> Q (Some d) (Ast c' (Some d) (K ++ [TNode k f]) s)) ->
  wp atom_expr Q (Ast c l K s).
Proof.
  intros H. unfold atom_expr. apply wp_bind, wp_literal.
  - step1. step1. step1; [|step1; [|step1]]; apply wp_bind.
    + apply makes_path_expr. intros. cbn [wp]. auto.
    + apply makes_paren_expr. intros. cbn [wp]. auto.
    + apply makes_block_expr_unchecked. intros. cbn [wp]. auto.
    + apply makes_error_skip. intros. cbn [wp]. auto.
  - intros. cbn [wp]. apply H. discriminate.
Qed.
Lemma adds_args_body : adds args_body.
Proof.
  intros c l K s Q H. unfold args_body. repeat step1; addsq H.
Qed.
Lemma adds_arg_list : adds arg_list. Proof. unfold arg_list. solve_adds. Qed.
Ltac rules16 :=
  lazymatch goal with
  | |- wp arg_list _ _ => apply adds_arg_list
  | |- _ => rules15
  end.
Ltac rules ::= rules16.
Lemma wp_call_expr q (Q : cmark -> ast -> Prop) c K T s :
  (forall d c' k f, k <> BIN_EXPR -> Q d (Ast c' (Some d) (K ++ [TNode k f]) s)) ->
  wp (call_expr q) Q (Ast c (Some q) (K ++ [T]) s).
Proof.
  intros H. unfold call_expr. repeat step1. apply wp_precede. repeat step1; mkq H.
Qed.
Lemma wp_field_expr q (Q : cmark -> ast -> Prop) c K T s :
  (forall d c' k f, k <> BIN_EXPR -> Q d (Ast c' (Some d) (K ++ [TNode k f]) s)) ->
  wp (field_expr q) Q (Ast c (Some q) (K ++ [T]) s).
Proof.
  intros H. unfold field_expr. repeat step1. apply wp_precede. repeat step1; mkq H.
Qed.
Lemma wp_postfix q (Q : cmark -> ast -> Prop) c K T s : nonbin T ->
  (forall d c' T', nonbin T' -> Q d (Ast c' (Some d) (K ++ [T']) s)) ->
  wp (call (F_postfix q)) Q (Ast c (Some q) (K ++ [T]) s).
Proof.
  intros N H. unfold call. cbn [wp pre]. split.
  - exists K, T. split; [split; reflexivity|exact N].
  - intros b [c' l' K' s'] (H1 & f0 & t & t' & H2 & [H3 H4] & H5). cbn [a_kids a_stack a_last] in *. subst.
    apply app_inj_tail in H2 as [<- <-]. apply H. exact H5.
Qed.
Lemma wp_postfix_body q (Q : cmark -> ast -> Prop) c K T s : nonbin T ->
  (forall d c' T', nonbin T' -> Q d (Ast c' (Some d) (K ++ [T']) s)) ->
  wp (postfix_body q) Q (Ast c (Some q) (K ++ [T]) s).
Proof.
  intros N H. unfold postfix_body. repeat step1.
  - apply wp_call_expr. intros. apply wp_postfix; [apply nonbin_node; auto|exact H].
  - apply wp_field_expr. intros. apply wp_postfix; [apply nonbin_node; auto|exact H].
  - apply H. exact N.
Qed.
Lemma wp_lhs (Q : option cmark -> ast -> Prop) c l K s :
  (forall d c' T, nonbin T -> Q (Some d) (Ast c' (Some d) (K ++ [T]) s)) -> wp lhs_ Q (Ast c l K s).
Proof.
  intros H. unfold lhs_. repeat step1; try (cbn [opt_tree app]; apply H; apply nonbin_node; discriminate).
  apply wp_atom_expr. intros d c' k f Hk. apply wp_bind.
  apply wp_postfix; [apply nonbin_node; exact Hk|]. intros. cbn [wp]. auto.
Qed.
Lemma op_prec c : alookup kind_eqb c op_table = prec c.
Proof. destruct c; reflexivity. Qed.

Lemma wp_loop bp q (Q : option cmark -> ast -> Prop) c K T s : 1 <= bp -> binds bp T ->
  (forall p, prec c = Some p -> binds p T) ->
  (forall d c' T', binds bp T' -> (forall p, prec c' = Some p -> p < bp) ->
     Q (Some d) (Ast c' (Some d) (K ++ [T']) s)) ->
  wp (call (F_expr_bp_loop bp q)) Q (Ast c (Some q) (K ++ [T]) s).
Proof.
  intros B H1 H2 H. unfold call. cbn [wp pre]. split.
  - split; [exact B|]. exists K, T. split; [split; reflexivity|auto].
  - intros b [c' l' K' s'] (E1 & f0 & t & d & t' & E2 & -> & [E3 E4] & E5 & E6).
    cbn [a_kids a_stack a_last a_cur] in *. subst.
    apply app_inj_tail in E2 as [<- <-]. apply H; auto.
Qed.
Lemma prec_pos c p : prec c = Some p -> 1 <= p /\ p < 255.
Proof. destruct c; cbn; intros E; try discriminate; injection E as <-; lia. Qed.

Lemma wp_loop_body bp q (Q : option cmark -> ast -> Prop) c K T s : 1 <= bp -> binds bp T ->
  (forall p, prec c = Some p -> binds p T) ->
  (forall d c' T', binds bp T' -> (forall p, prec c' = Some p -> p < bp) ->
     Q (Some d) (Ast c' (Some d) (K ++ [T']) s)) ->
  wp (expr_bp_loop_body bp q) Q (Ast c (Some q) (K ++ [T]) s).
Proof.
  intros B H1 H2 H. unfold expr_bp_loop_body, current_op. repeat step1.
  - rewrite op_prec in Heqb. apply H; [exact H1|]. intros p E. rewrite E in Heqb. cbn [fst] in Heqb. lia.
  - rewrite op_prec in *. destruct (prec c) as [p|] eqn:E; cbn [fst snd] in *; [|lia].
    destruct (prec_pos c p E) as [P1 P2].
    apply wp_precede. intros m. apply wp_bind. apply wp_bump; [intros ->; discriminate|].
    intros _ c' Hc'. apply wp_bind. unfold call at 1. cbn [wp pre]. split; [lia|].
    intros b [c2 l2 K2 s2] (E1 & d & t' & -> & [E2 E3] & E4 & E5).
    cbn [a_kids a_stack a_last a_cur] in *. subst. cbn [app] in *.
    apply wp_bind, wp_complete; [discriminate| |].
    + intros _. exists T, c, t', p. cbn [opt_tree app]. auto.
    + intros d'. cbn [opt_tree app]. apply wp_loop; [exact B| | |exact H].
      * cbn. exists p. split; [exact E|lia].
      * intros p' E'. cbn. exists p. split; [exact E|]. specialize (E5 p' E'). lia.
Qed.

(** ** Statements and items *)
Lemma adds_stmt_semi w : adds (stmt_semi w).
Proof. destruct w; unfold stmt_semi; solve_adds. Qed.
Ltac rules17 :=
  lazymatch goal with
  | |- wp (stmt_semi _) _ _ => apply adds_stmt_semi
  | |- _ => rules16
  end.
Ltac rules ::= rules17.
Lemma adds_stmt w : adds (stmt w). Proof. unfold stmt, let_stmt. solve_adds. Qed.
Ltac rules18 :=
  lazymatch goal with
  | |- wp (stmt _) _ _ => apply adds_stmt
  | |- _ => rules17
  end.
Ltac rules ::= rules18.
Lemma adds_expr_block_contents_body : adds expr_block_contents_body. Proof. unfold expr_block_contents_body. solve_adds. Qed.
Lemma adds_block_contents_body : adds block_contents_body. Proof. unfold block_contents_body. solve_adds. Qed.
Lemma adds_record_field : adds record_field. Proof. unfold record_field. solve_adds. Qed.
Ltac rules19 :=
  lazymatch goal with
  | |- wp record_field _ _ => apply adds_record_field
  | |- _ => rules18
  end.
Ltac rules ::= rules19.
Lemma adds_record_fields_body : adds record_fields_body. Proof. unfold record_fields_body. solve_adds. Qed.
Lemma adds_record_field_list : adds record_field_list. Proof. unfold record_field_list. solve_adds. Qed.
Lemma adds_opt_ret_type : adds opt_ret_type. Proof. unfold opt_ret_type. solve_adds. Qed.
Ltac rules20 :=
  lazymatch goal with
  | |- wp record_field_list _ _ => apply adds_record_field_list
  | |- wp opt_ret_type _ _ => apply adds_opt_ret_type
  | |- _ => rules19
  end.
Ltac rules ::= rules20.
Lemma adds_item : adds item. Proof. unfold item, opt_item, function_def, struct_. solve_adds. Qed.
Ltac rules21 :=
  lazymatch goal with
  | |- wp item _ _ => apply adds_item
  | |- _ => rules20
  end.
Ltac rules ::= rules21.
Lemma adds_items_body : adds items_body. Proof. unfold items_body. solve_adds. Qed.
Lemma adds_item_list : adds item_list. Proof. unfold item_list. solve_adds. Qed.
Lemma adds_address_ident_r r : adds (address_ident_r r). Proof. unfold address_ident_r. solve_adds. Qed.
Ltac rules22 :=
  lazymatch goal with
  | |- wp item_list _ _ => apply adds_item_list
  | |- wp (address_ident_r _) _ _ => apply adds_address_ident_r
  | |- _ => rules21
  end.
Ltac rules ::= rules22.
Lemma adds_module : adds module. Proof. unfold module. solve_adds. Qed.
Ltac rules23 :=
  lazymatch goal with
  | |- wp module _ _ => apply adds_module
  | |- _ => rules22
  end.
Ltac rules ::= rules23.
Lemma adds_address_items_body : adds address_items_body. Proof. unfold address_items_body. solve_adds. Qed.
Lemma adds_address_item_list : adds address_item_list. Proof. unfold address_item_list. solve_adds. Qed.
Ltac rules24 :=
  lazymatch goal with
  | |- wp address_item_list _ _ => apply adds_address_item_list
  | |- _ => rules23
  end.
Ltac rules ::= rules24.
Lemma adds_script : adds script. Proof. unfold script. solve_adds. Qed.
Lemma adds_address : adds address. Proof. unfold address. solve_adds. Qed.
Ltac rules25 :=
  lazymatch goal with
  | |- wp script _ _ => apply adds_script
  | |- wp address _ _ => apply adds_address
  | |- _ => rules24
  end.
Ltac rules ::= rules25.

Lemma adds_grows {A} (p : prog A) st : adds p -> wp p (fun _ st' => grows st st') st.
Proof.
  intros H. destruct st as [c l K s]. apply H. intros. split; [reflexivity|].
  cbn [a_kids]. eexists; reflexivity.
Qed.

Lemma adds_skip_body ts st : In EOF ts -> wp (skip_until_body ts) (fun _ st' => grows st st') st.
Proof.
  intros H. destruct st as [c l K s]. unfold skip_until_body. repeat step1.
  - split; [reflexivity|]. new_.
  - subst. exfalso. rewrite ts_has_spec in Heqb. apply kind_in_In in H. congruence.
  - apply adds_skip; [exact H|]. intros. split; [reflexivity|]. cbn [a_kids]. new_.
Qed.
Lemma wp_root_call (Q : unit -> ast -> Prop) c l K s :
  (forall l' new, (is_trivia c = true -> exists k r, new = TTok k :: r) -> Q tt (Ast EOF l' (K ++ new) s)) ->
  wp (call F_root) Q (Ast c l K s).
Proof.
  intros H. unfold call. cbn [wp pre]. split; [exact I|].
  intros [] [c' l' K' s'] (H1 & H2 & new & H3 & H4). cbn [a_cur a_stack a_kids] in *. subst. apply H. exact H4.
Qed.
Lemma wp_root_body (Q : unit -> ast -> Prop) c l K s :
  (forall l' new, (is_trivia c = true -> exists k r, new = TTok k :: r) -> Q tt (Ast EOF l' (K ++ new) s)) ->
  wp root_body Q (Ast c l K s).
Proof.
  intros H. unfold root_body. apply wp_bind, wp_at. cbn [a_cur].
  destruct (kind_eqb c EOF) eqn:E0.
  { cbn [wp]. apply kind_eqb_eq in E0. subst c. pose proof (H l []) as X. rewrite app_nil_r in X. apply X. discriminate. }
  apply wp_bind, wp_at. cbn [a_cur]. destruct (kind_eqb c MODULE_KW) eqn:E1.
  { apply kind_eqb_eq in E1. subst c. apply wp_bind, adds_module. intros. apply wp_root_call. intros.
    rewrite <- app_assoc. apply H. discriminate. }
  apply wp_bind, wp_at. cbn [a_cur]. destruct (kind_eqb c SCRIPT_KW) eqn:E2.
  { apply kind_eqb_eq in E2. subst c. apply wp_bind, adds_script. intros. apply wp_root_call. intros.
    rewrite <- app_assoc. apply H. discriminate. }
  apply wp_bind, wp_at. cbn [a_cur]. destruct (kind_eqb c ADDRESS_KW) eqn:E3.
  { apply kind_eqb_eq in E3. subst c. apply wp_bind, adds_address. intros. apply wp_root_call. intros.
    rewrite <- app_assoc. apply H. discriminate. }
  apply wp_bind, wp_current. cbn [a_cur]. destruct (is_trivia c) eqn:T; apply wp_bind.
  - apply wp_bump_any; [intros ->; discriminate|]. intros. apply wp_root_call. intros. rewrite <- app_assoc.
    apply H. intros _. cbn [app]. eauto.
  - apply wp_error. apply wp_root_call. intros. rewrite <- app_assoc. apply H. discriminate.
Qed.

Theorem body_sound f st : pre f st -> wp (body f) (post f st) st.
Proof.
  intros P.
  destruct f; cbn [body pre post] in *;
    try (apply adds_grows; first
      [ apply adds_address_items_body | apply adds_items_body | apply adds_record_fields_body
      | apply adds_generic_params_body | apply adds_bounds_body | apply adds_params_body | apply adds_type_body
      | apply adds_block_contents_body | apply adds_expr_block_contents_body | apply adds_args_body
      | apply adds_paren_body | apply adds_record_expr_fields_body | apply adds_pattern_body
      | apply adds_tuple_pat_body | apply adds_record_pat_fields_body ]).
  - apply adds_skip_body. exact P.
  - destruct st as [c l K s]. apply wp_root_body. intros. cbn. eauto 8.
  - destruct P as (f0 & t & P1 & P2). destruct st as [c l K s]. cbn [a_last a_kids] in *. subst.
    unfold path_for_qualifier_body. apply wp_bind, wp_nth. intros k2. apply wp_bind, wp_at. cbn [a_cur].
    destruct (kind_eqb c COLON_COLON && _).
    + apply wp_bind, wp_precede. intros m. repeat step1. apply wp_path_for_qualifier. intros.
      cbn. split; [reflexivity|]. eauto.
    + cbn. split; [reflexivity|]. eauto.
  - destruct st as [c l K s]. unfold expr_bp_body. apply wp_bind, wp_lhs. intros d c' T N.
    apply wp_loop; [exact P|apply N|intros; apply N|]. intros d' c2 T' B1 B2. cbn. split; [reflexivity|].
    exists d', T'. split; [reflexivity|]. split; [split; reflexivity|]. auto.
  - destruct P as (P0 & f0 & t & [P1 P2] & P3 & P4). destruct st as [c l K s]. cbn [a_last a_kids a_cur] in *. subst.
    apply wp_loop_body; auto. intros d' c2 T' B1 B2. cbn. split; [reflexivity|].
    exists f0, t, d', T'. split; [reflexivity|]. split; [reflexivity|]. split; [split; reflexivity|]. auto.
  - destruct P as (f0 & t & [P1 P2] & P3). destruct st as [c l K s]. cbn [a_last a_kids] in *. subst.
    apply wp_postfix_body; [exact P3|]. intros d c' T' N. cbn. split; [reflexivity|].
    exists f0, t, T'. split; [reflexivity|]. split; [split; reflexivity|]. exact N.
Qed.

(** ** The whole grammar on the whole text *)
Lemma lex_eof t lx cur ks : lex_ok t lx cur ks -> cur = EOF ->
  exists gs, pieces (ungroup gs) = t /\ steps t (ungroup gs) [] /\ lx_all lx = map tok_of (ungroup gs) ++ [token_new EOF 0] /\
    Forall group_ok gs /\ Forall solid (tl gs) /\ Forall2 (fun g k => remap (fst (fst g)) k) gs ks.
Proof.
  intros (gs & rest & len & I & G1 & G2 & G3 & G4) ->. exists gs.
  destruct (proj1 (find_token_eof rest len) (li_cur _ _ _ _ _ _ I)) as [-> ->].
  pose proof (li_steps _ _ _ _ _ _ I) as S. pose proof (steps_text _ _ _ S) as E. rewrite app_nil_r in E.
  split; [auto|]. split; [auto|]. split; [exact (li_all _ _ _ _ _ _ I)|]. auto.
Qed.

Record parsed (t : text) (evs : list event) (toks : list token) (F : forest) (gs : list group) : Prop := {
  p_den : den evs [TNode SOURCE_FILE F];
  p_ok : Forall tree_ok F;
  p_text : pieces (ungroup gs) = t;
  p_steps : steps t (ungroup gs) [];
  p_toks : toks = map tok_of (ungroup gs) ++ [token_new EOF 0];
  p_groups : Forall group_ok gs;
  p_solid : Forall solid (tl gs);
  p_leaves : Forall2 (fun g k => remap (fst (fst g)) k) gs (fleaves F);
  p_first : forall g r, gs = g :: r -> ~ solid g -> exists k F', F = TTok k :: F'
}.

Theorem grammar_sound t lx fuel : lexer_new t = Ok lx ->
  match interp (run fuel) root (parser_new lx) with
  | Ok (_, s) => exists F gs, parsed t (ps_events s) (lx_all (ps_lexer s)) F gs
  | Panic w => soft w
  | Fuel => True
  end.
Proof.
  intros HL. destruct (lexer_new_inv _ _ HL) as (k & len & I).
  assert (R : rel t (parser_new lx) (Ast k None [] [])).
  { constructor; cbn.
    - constructor. constructor.
    - exact Logic.I.
    - exists [], t, len. cbn. split; [exact I|]. split; [constructor|]. split; [constructor|].
      split; [congruence|constructor].
    - constructor. }
  assert (W : wp root (fun _ st' => a_stack st' = [] /\ a_cur st' = EOF /\ exists F, a_kids st' = [TNode SOURCE_FILE F] /\
      (is_trivia k = true -> exists k' F', F = TTok k' :: F')) (Ast k None [] [])).
  { unfold root. apply wp_bind, wp_start. intros m. apply wp_bind, wp_root_call. intros l' new Hn.
    apply wp_bind, wp_complete; [discriminate|intro; discriminate|]. intros r. cbn.
    split; [reflexivity|]. split; [reflexivity|]. exists new. auto. }
  pose proof (interp_sound t (run fuel) (run_sound t body_sound fuel) _ _ _ _ _ R W) as O.
  unfold outcome in O. destruct (interp (run fuel) root (parser_new lx)) as [[u s]|w|]; auto.
  destruct O as (st & [RL _ RX RO] & H1 & H2 & F & H3 & H4). rewrite H1, H3 in *. cbn [total] in *.
  destruct (lex_eof _ _ _ _ RX H2) as (gs & E1 & E2 & E3 & E4 & E5 & E6).
  exists F, gs. constructor; auto.
  - inversion RL; auto.
  - inversion RO as [|x y Hok _]; subst. cbn [tree_ok] in Hok. apply all_forest. apply Hok.
  - unfold fleaves in *. cbn [flat_map leaves] in E6. rewrite app_nil_r in E6. exact E6.
  - intros g r -> N. apply H4. unfold solid in N. destruct g as [[k0 w] tr]. cbn [fst] in N.
    assert (k0 = k).
    { inversion E2 as [|k1 w1 t1 ws1 r1 F1 S1 Et]; subst. pose proof (li_cur _ _ _ _ _ _ I) as C. rewrite <- Et in C. congruence. }
    subst. destruct (is_trivia k); congruence.
Qed.
