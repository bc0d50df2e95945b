(** What the parser does from some point on does not depend on the events it has
    collected before: markers are numbers that are only ever handed back. *)
From Coq Require Import String.
From Verif Require Import Base BaseProofs Kinds KindsProofs LexSpec Lexer LexerRuns LexerProofs LexerStateProofs
  Parser Grammar Sink TreeSpec GreenSpec ParserLogic GrammarProofs ProcessProofs SinkProofs TermProofs ParseProofs
  ParserTotal AcceptTop SyntaxSpec ShapeSpec ShapeProofs LayoutSpec LayoutProofs GapTop BeforeProofs SharedSpec SharedProofs KeepSpec KeepProofs.
Local Open Scope N_scope.

Section Shift.
  (** the events collected before, in the two runs *)
  Variables P P' : list event.

  (** ** Values that differ only in the numbers of markers *)
  Definition mrel (m m' : nat) : Prop := exists x, m = (length P + x)%nat /\ m' = (length P' + x)%nat.
  Record crel (c c' : cmark) : Prop := { cr_start : mrel (cm_start c) (cm_start c'); cr_finish : mrel (cm_finish c) (cm_finish c'); cr_kind : cm_kind c = cm_kind c' }.
  Inductive orel : option cmark -> option cmark -> Prop :=
  | or_none : orel None None
  | or_some c c' : crel c c' -> orel (Some c) (Some c').
  Class vrel (A : Type) := vr : A -> A -> Prop.
  Local Instance vr_unit : vrel unit := fun _ _ => True.
  Local Instance vr_bool : vrel bool := eq.
  Local Instance vr_kind : vrel kind := eq.
  Local Instance vr_text : vrel text := eq.
  Local Instance vr_op : vrel (N * kind) := eq.
  Local Instance vr_flags : vrel (bool * bool * bool) := eq.
  Local Instance vr_nat : vrel nat := mrel.
  Local Instance vr_cmark : vrel cmark := crel.
  Local Instance vr_option : vrel (option cmark) := orel.

  Definition frel (f f' : fn) : Prop :=
    match f, f' with
    | F_path_for_qualifier q, F_path_for_qualifier q' => crel q q'
    | F_expr_bp_loop b q, F_expr_bp_loop b' q' => b = b' /\ crel q q'
    | F_postfix q, F_postfix q' => crel q q'
    | F_path_for_qualifier _, _ | F_expr_bp_loop _ _, _ | F_postfix _, _ => False
    | _, _ => f = f'
    end.
  Definition rrel (f f' : fn) : fn_ret f -> fn_ret f' -> Prop :=
    match f return fn_ret f -> fn_ret f' -> Prop with
    | F_expr_bp _ => fun o => match f' return fn_ret f' -> Prop with F_expr_bp _ => fun o' => orel o o' | _ => fun _ => False end
    | F_expr_bp_loop _ _ => fun o => match f' return fn_ret f' -> Prop with F_expr_bp_loop _ _ => fun o' => orel o o' | _ => fun _ => False end
    | F_postfix _ => fun c => match f' return fn_ret f' -> Prop with F_postfix _ => fun c' => crel c c' | _ => fun _ => False end
    | F_paren => fun b => match f' return fn_ret f' -> Prop with F_paren => fun b' => b = b' | _ => fun _ => False end
    | F_tuple_pat _ _ _ => fun b => match f' return fn_ret f' -> Prop with F_tuple_pat _ _ _ => fun b' => b = b' | _ => fun _ => False end
    | _ => fun _ _ => True
    end.

  Inductive prel {A A'} (R : A -> A' -> Prop) : prog A -> prog A' -> Prop :=
  | p_ret a a' : R a a' -> prel R (Ret a) (Ret a')
  | p_nth n k k' : (forall b, prel R (k b) (k' b)) -> prel R (Do (CNth n) k) (Do (CNth n) k')
  | p_current k k' : (forall b, prel R (k b) (k' b)) -> prel R (Do CCurrent k) (Do CCurrent k')
  | p_text k k' : (forall b, prel R (k b) (k' b)) -> prel R (Do CCurrentText k) (Do CCurrentText k')
  | p_start k k' : (forall m m', mrel m m' -> prel R (k m) (k' m')) -> prel R (Do CStart k) (Do CStart k')
  | p_bump kk k k' : (forall b, prel R (k b) (k' b)) -> prel R (Do (CDoBump kk) k) (Do (CDoBump kk) k')
  | p_error msg k k' : (forall b, prel R (k b) (k' b)) -> prel R (Do (CError msg) k) (Do (CError msg) k')
  | p_complete m m' kk k k' : mrel m m' -> (forall c c', crel c c' -> prel R (k c) (k' c')) -> prel R (Do (CComplete m kk) k) (Do (CComplete m' kk) k')
  | p_abandon m m' k k' : mrel m m' -> (forall b, prel R (k b) (k' b)) -> prel R (Do (CAbandon m) k) (Do (CAbandon m') k')
  | p_precede c c' k k' : crel c c' -> (forall m m', mrel m m' -> prel R (k m) (k' m')) -> prel R (Do (CPrecede c) k) (Do (CPrecede c') k')
  | p_assert b k k' : (forall x, prel R (k x) (k' x)) -> prel R (Do (CAssert b) k) (Do (CAssert b) k')
  | p_call f f' k k' : frel f f' -> (forall x x', rrel f f' x x' -> prel R (k x) (k' x')) -> prel R (Call f k) (Call f' k').
  Lemma p_bind {A A' B B'} (R : A -> A' -> Prop) (S : B -> B' -> Prop) p p' q q' :
    prel R p p' -> (forall a a', R a a' -> prel S (q a) (q' a')) -> prel S (pbind p q) (pbind p' q').
  Proof. intros H K. induction H; cbn [pbind]; try (constructor; auto); auto. Qed.

  (** ** The grammar *)
  Hint Extern 0 (vr _ _) => (assumption || reflexivity || exact I) : shift.
  Hint Extern 1 (vr None None) => exact or_none : shift.
  Hint Extern 1 (vr (Some _) (Some _)) => (apply or_some; assumption) : shift.
  Hint Extern 0 (crel _ _) => assumption : shift.
  Hint Extern 0 (mrel _ _) => assumption : shift.
  Ltac vals := repeat match goal with
    | H : vr ?x ?y |- _ =>
        let t := type of x in let t := eval cbn [fn_ret] in t in lazymatch t with
        | option cmark => destruct H
        | bool => unfold vr, vr_bool in H; subst y
        | kind => unfold vr, vr_kind in H; subst y
        | text => unfold vr, vr_text in H; subst y
        | prod _ kind => unfold vr, vr_op in H; subst y
        | prod _ bool => unfold vr, vr_flags in H; subst y
        | unit => clear H
        end
    end.
  Ltac go := repeat (vals; lazymatch goal with
    | |- forall _, _ => intro
    | |- prel _ (pbind _ _) (pbind _ _) => apply (p_bind vr)
    | |- prel _ (Ret _) (Ret _) => apply p_ret; auto with shift
    | |- prel _ (if ?b then _ else _) (if ?b then _ else _) => destruct b
    | |- prel _ (let _ := _ in _) _ => cbv zeta
    | |- prel _ (match ?x with SemiYes => _ | _ => _ end) _ => destruct x
    | |- prel _ (match ?x with (_, _) => _ end) (match ?x with (_, _) => _ end) => destruct x
    | |- prel _ (match _ with Some _ => _ | None => _ end) _ => cbv beta iota
    | |- prel _ _ _ => solve [auto with shift]
    end).
  Lemma s_current : prel vr current current. Proof. constructor. intros b. constructor. reflexivity. Qed.
  Lemma s_text : prel vr current_text current_text. Proof. constructor. intros b. constructor. reflexivity. Qed.
  Lemma s_nth n : prel vr (nth_ n) (nth_ n). Proof. constructor. intros b. constructor. reflexivity. Qed.
  Lemma s_start : prel vr start start. Proof. constructor. intros m m' H. constructor. exact H. Qed.
  Lemma s_error msg : prel vr (error msg) (error msg). Proof. constructor. intros b. constructor. exact I. Qed.
  Lemma s_complete m m' k : vr m m' -> prel vr (complete m k) (complete m' k).
  Proof. intros H. constructor; [exact H|]. intros c c' C. constructor. exact C. Qed.
  Lemma s_abandon m m' : vr m m' -> prel vr (abandon m) (abandon m').
  Proof. intros H. constructor; [exact H|]. intros b. constructor. exact I. Qed.
  Lemma s_precede c c' : vr c c' -> prel vr (precede c) (precede c').
  Proof. intros H. constructor; [exact H|]. intros m m' M. constructor. exact M. Qed.
  Lemma s_do_bump k : prel vr (do_bump k) (do_bump k). Proof. constructor. intros b. constructor. exact I. Qed.
  Lemma s_assert p : prel vr p p -> prel vr (assert_p p) (assert_p p).
  Proof. intros H. unfold assert_p. eapply p_bind; [exact H|]. intros a a' E. unfold vr, vr_bool in E. subst a'. constructor. intros b. constructor. exact I. Qed.
  Lemma s_call_unit f : fn_ret f = unit -> (forall x x', rrel f f x x') -> frel f f -> prel (fun _ _ => True) (call f) (call f).
  Proof. intros _ H F. constructor; [exact F|]. intros x x' _. constructor. exact I. Qed.
  Hint Resolve s_current s_text s_nth s_start s_error s_complete s_abandon s_precede s_do_bump s_assert : shift.
  Lemma s_skip ts : prel vr (call (F_skip_until ts) : prog unit) (call (F_skip_until ts)). Proof. constructor; [reflexivity|]. intros x x' _. constructor. exact I. Qed.
  Lemma s_root_call : prel vr (call F_root : prog unit) (call F_root). Proof. constructor; [reflexivity|]. intros x x' _. constructor. exact I. Qed.
  Lemma s_address_items_call : prel vr (call F_address_items : prog unit) (call F_address_items). Proof. constructor; [reflexivity|]. intros x x' _. constructor. exact I. Qed.
  Lemma s_items_call : prel vr (call F_items : prog unit) (call F_items). Proof. constructor; [reflexivity|]. intros x x' _. constructor. exact I. Qed.
  Lemma s_record_fields_call : prel vr (call F_record_fields : prog unit) (call F_record_fields). Proof. constructor; [reflexivity|]. intros x x' _. constructor. exact I. Qed.
  Lemma s_generic_params_call : prel vr (call F_generic_params : prog unit) (call F_generic_params). Proof. constructor; [reflexivity|]. intros x x' _. constructor. exact I. Qed.
  Lemma s_bounds_call : prel vr (call F_bounds : prog unit) (call F_bounds). Proof. constructor; [reflexivity|]. intros x x' _. constructor. exact I. Qed.
  Lemma s_params_call : prel vr (call F_params : prog unit) (call F_params). Proof. constructor; [reflexivity|]. intros x x' _. constructor. exact I. Qed.
  Lemma s_type_call : prel vr (call F_type : prog unit) (call F_type). Proof. constructor; [reflexivity|]. intros x x' _. constructor. exact I. Qed.
  Lemma s_block_call : prel vr (call F_block_contents : prog unit) (call F_block_contents). Proof. constructor; [reflexivity|]. intros x x' _. constructor. exact I. Qed.
  Lemma s_expr_block_call : prel vr (call F_expr_block_contents : prog unit) (call F_expr_block_contents). Proof. constructor; [reflexivity|]. intros x x' _. constructor. exact I. Qed.
  Lemma s_args_call : prel vr (call F_args : prog unit) (call F_args). Proof. constructor; [reflexivity|]. intros x x' _. constructor. exact I. Qed.
  Lemma s_record_expr_call : prel vr (call F_record_expr_fields : prog unit) (call F_record_expr_fields). Proof. constructor; [reflexivity|]. intros x x' _. constructor. exact I. Qed.
  Lemma s_pattern_call : prel vr (call F_pattern : prog unit) (call F_pattern). Proof. constructor; [reflexivity|]. intros x x' _. constructor. exact I. Qed.
  Lemma s_record_pat_call : prel vr (call F_record_pat_fields : prog unit) (call F_record_pat_fields). Proof. constructor; [reflexivity|]. intros x x' _. constructor. exact I. Qed.
  Lemma s_paren_call : prel vr (call F_paren : prog bool) (call F_paren). Proof. constructor; [reflexivity|]. intros x x' H. constructor. exact H. Qed.
  Lemma s_tuple_call a b c : prel vr (call (F_tuple_pat a b c) : prog (bool * bool * bool)) (call (F_tuple_pat a b c)). Proof. constructor; [reflexivity|]. intros x x' H. constructor. exact H. Qed.
  Lemma s_bp_call bp : prel vr (call (F_expr_bp bp) : prog (option cmark)) (call (F_expr_bp bp)). Proof. constructor; [reflexivity|]. intros x x' H. constructor. exact H. Qed.
  Lemma s_loop_call bp q q' : vr q q' -> prel vr (call (F_expr_bp_loop bp q) : prog (option cmark)) (call (F_expr_bp_loop bp q')).
  Proof. intros C. constructor; [split; [reflexivity|exact C]|]. intros x x' H. constructor. exact H. Qed.
  Lemma s_postfix_call q q' : vr q q' -> prel vr (call (F_postfix q) : prog cmark) (call (F_postfix q')).
  Proof. intros C. constructor; [exact C|]. intros x x' H. constructor. exact H. Qed.
  Lemma s_qual_call q q' : vr q q' -> prel vr (call (F_path_for_qualifier q) : prog unit) (call (F_path_for_qualifier q')).
  Proof. intros C. constructor; [exact C|]. intros x x' H. constructor. exact I. Qed.
  Hint Resolve s_skip s_root_call s_address_items_call s_items_call s_record_fields_call s_generic_params_call s_bounds_call s_params_call s_type_call
    s_block_call s_expr_block_call s_args_call s_record_expr_call s_pattern_call s_record_pat_call s_paren_call s_tuple_call s_bp_call s_loop_call
    s_postfix_call s_qual_call : shift.
  Lemma s_orp p q : prel vr p p -> prel vr q q -> prel vr (orp p q) (orp p q). Proof. intros. unfold orp. go. Qed.
  Lemma s_andp p q : prel vr p p -> prel vr q q -> prel vr (andp p q) (andp p q). Proof. intros. unfold andp. go. Qed.
  Lemma s_notp p : prel vr p p -> prel vr (notp p) (notp p). Proof. intros. unfold notp. go. Qed.
  Lemma s_whenp b p : prel vr p p -> prel vr (whenp b p) (whenp b p). Proof. intros. unfold whenp. go. Qed.
  Lemma s_nth_at n k : prel vr (nth_at n k) (nth_at n k). Proof. unfold nth_at. go. Qed.
  Hint Resolve s_orp s_andp s_notp s_whenp s_nth_at : shift.
  Lemma s_at k : prel vr (at_ k) (at_ k). Proof. unfold at_. go. Qed.
  Lemma s_at_ts ts : prel vr (at_ts ts) (at_ts ts). Proof. unfold at_ts. go. Qed.
  Hint Resolve s_at s_at_ts : shift.
  Lemma s_eat k : prel vr (eat k) (eat k). Proof. unfold eat. go. Qed.
  Hint Resolve s_eat : shift.
  Lemma s_bump k : prel vr (bump k) (bump k). Proof. unfold bump. go. Qed.
  Lemma s_bump_any : prel vr bump_any bump_any. Proof. unfold bump_any. go. Qed.
  Lemma s_bump_remap k : prel vr (bump_remap k) (bump_remap k). Proof. unfold bump_remap. go. Qed.
  Lemma s_expect k : prel vr (expect k) (expect k). Proof. unfold expect. go. Qed.
  Hint Resolve s_bump s_bump_any s_bump_remap s_expect : shift.
  Lemma s_err_recover msg r : prel vr (err_recover msg r) (err_recover msg r). Proof. unfold err_recover. go. Qed.
  Lemma s_err_and_bump msg : prel vr (err_and_bump msg) (err_and_bump msg). Proof. unfold err_and_bump. apply s_err_recover. Qed.
  Lemma s_error_skip msg ts : prel vr (error_and_skip_until msg ts) (error_and_skip_until msg ts). Proof. unfold error_and_skip_until. go. Qed.
  Lemma s_skip_body ts : prel vr (skip_until_body ts) (skip_until_body ts). Proof. unfold skip_until_body. go. Qed.
  Hint Resolve s_err_recover s_err_and_bump s_error_skip s_skip_body : shift.
  Lemma s_expr : prel vr expr expr.
  Proof. intros. unfold expr. go. Qed.
  Hint Resolve s_expr : shift.
  Lemma s_type_ : prel vr type_ type_.
  Proof. intros. unfold type_. go. Qed.
  Hint Resolve s_type_ : shift.
  Lemma s_pattern : prel vr pattern pattern.
  Proof. intros. unfold pattern. go. Qed.
  Hint Resolve s_pattern : shift.
  Lemma s_block_contents : prel vr block_contents block_contents.
  Proof. intros. unfold block_contents. go. Qed.
  Hint Resolve s_block_contents : shift.
  Lemma s_expr_block_contents : prel vr expr_block_contents expr_block_contents.
  Proof. intros. unfold expr_block_contents. go. Qed.
  Hint Resolve s_expr_block_contents : shift.
  Lemma s_name_r : forall recovery, prel vr (name_r recovery) (name_r recovery).
  Proof. intros. unfold name_r. go. Qed.
  Hint Resolve s_name_r : shift.
  Lemma s_name : prel vr name name.
  Proof. intros. unfold name. go. Qed.
  Hint Resolve s_name : shift.
  Lemma s_name_ref : prel vr name_ref name_ref.
  Proof. intros. unfold name_ref. go. Qed.
  Hint Resolve s_name_ref : shift.
  Lemma s_block_expr_unchecked : prel vr block_expr_unchecked block_expr_unchecked.
  Proof. intros. unfold block_expr_unchecked. go. Qed.
  Hint Resolve s_block_expr_unchecked : shift.
  Lemma s_block_expr : prel vr block_expr block_expr.
  Proof. intros. unfold block_expr. go. Qed.
  Hint Resolve s_block_expr : shift.
  Lemma s_error_block : forall msg, prel vr (error_block msg) (error_block msg).
  Proof. intros. unfold error_block. go. Qed.
  Hint Resolve s_error_block : shift.
  Lemma s_is_path_start : prel vr is_path_start is_path_start.
  Proof. intros. unfold is_path_start. go. Qed.
  Hint Resolve s_is_path_start : shift.
  Lemma s_path_segment : forall first, prel vr (path_segment first) (path_segment first).
  Proof. intros. unfold path_segment. go. Qed.
  Hint Resolve s_path_segment : shift.
  Lemma s_path_for_qualifier_body : forall qual qual', vr qual qual' -> prel vr (path_for_qualifier_body qual) (path_for_qualifier_body qual').
  Proof. intros. unfold path_for_qualifier_body. go. Qed.
  Hint Resolve s_path_for_qualifier_body : shift.
  Lemma s_path : prel vr path path.
  Proof. intros. unfold path. go. Qed.
  Hint Resolve s_path : shift.
  Lemma s_type_path : prel vr type_path type_path.
  Proof. intros. unfold type_path. go. Qed.
  Hint Resolve s_type_path : shift.
  Lemma s_expr_path : prel vr expr_path expr_path.
  Proof. intros. unfold expr_path. go. Qed.
  Hint Resolve s_expr_path : shift.
  Lemma s_ascription : prel vr ascription ascription.
  Proof. intros. unfold ascription. go. Qed.
  Hint Resolve s_ascription : shift.
  Lemma s_ref_type : prel vr ref_type ref_type.
  Proof. intros. unfold ref_type. go. Qed.
  Hint Resolve s_ref_type : shift.
  Lemma s_path_type : prel vr path_type path_type.
  Proof. intros. unfold path_type. go. Qed.
  Hint Resolve s_path_type : shift.
  Lemma s_type_body : prel vr type_body type_body.
  Proof. intros. unfold type_body. go. Qed.
  Hint Resolve s_type_body : shift.
  Lemma s_param : forall m m', vr m m' -> prel vr (param m) (param m').
  Proof. intros. unfold param. go. Qed.
  Hint Resolve s_param : shift.
  Lemma s_params_body : prel vr params_body params_body.
  Proof. intros. unfold params_body. go. Qed.
  Hint Resolve s_params_body : shift.
  Lemma s_param_list : prel vr param_list param_list.
  Proof. intros. unfold param_list. go. Qed.
  Hint Resolve s_param_list : shift.
  Lemma s_type_bound : prel vr type_bound type_bound.
  Proof. intros. unfold type_bound. go. Qed.
  Hint Resolve s_type_bound : shift.
  Lemma s_bounds_body : prel vr bounds_body bounds_body.
  Proof. intros. unfold bounds_body. go. Qed.
  Hint Resolve s_bounds_body : shift.
  Lemma s_bounds_without_colon_m : forall m m', vr m m' -> prel vr (bounds_without_colon_m m) (bounds_without_colon_m m').
  Proof. intros. unfold bounds_without_colon_m. go. Qed.
  Hint Resolve s_bounds_without_colon_m : shift.
  Lemma s_bounds_without_colon : prel vr bounds_without_colon bounds_without_colon.
  Proof. intros. unfold bounds_without_colon. go. Qed.
  Hint Resolve s_bounds_without_colon : shift.
  Lemma s_bounds : prel vr bounds bounds.
  Proof. intros. unfold bounds. go. Qed.
  Hint Resolve s_bounds : shift.
  Lemma s_type_param : forall m m', vr m m' -> prel vr (type_param m) (type_param m').
  Proof. intros. unfold type_param. go. Qed.
  Hint Resolve s_type_param : shift.
  Lemma s_generic_param : prel vr generic_param generic_param.
  Proof. intros. unfold generic_param. go. Qed.
  Hint Resolve s_generic_param : shift.
  Lemma s_generic_params_body : prel vr generic_params_body generic_params_body.
  Proof. intros. unfold generic_params_body. go. Qed.
  Hint Resolve s_generic_params_body : shift.
  Lemma s_generic_param_list : prel vr generic_param_list generic_param_list.
  Proof. intros. unfold generic_param_list. go. Qed.
  Hint Resolve s_generic_param_list : shift.
  Lemma s_opt_generic_param_list : prel vr opt_generic_param_list opt_generic_param_list.
  Proof. intros. unfold opt_generic_param_list. go. Qed.
  Hint Resolve s_opt_generic_param_list : shift.
  Lemma s_ident_pat : prel vr ident_pat ident_pat.
  Proof. intros. unfold ident_pat. go. Qed.
  Hint Resolve s_ident_pat : shift.
  Lemma s_rest_pat : prel vr rest_pat rest_pat.
  Proof. intros. unfold rest_pat. go. Qed.
  Hint Resolve s_rest_pat : shift.
  Lemma s_wildcard_pat : prel vr wildcard_pat wildcard_pat.
  Proof. intros. unfold wildcard_pat. go. Qed.
  Hint Resolve s_wildcard_pat : shift.
  Lemma s_record_pat_field : prel vr record_pat_field record_pat_field.
  Proof. intros. unfold record_pat_field. go. Qed.
  Hint Resolve s_record_pat_field : shift.
  Lemma s_record_pat_fields_body : prel vr record_pat_fields_body record_pat_fields_body.
  Proof. intros. unfold record_pat_fields_body. go. Qed.
  Hint Resolve s_record_pat_fields_body : shift.
  Lemma s_record_pat_field_list : prel vr record_pat_field_list record_pat_field_list.
  Proof. intros. unfold record_pat_field_list. go. Qed.
  Hint Resolve s_record_pat_field_list : shift.
  Lemma s_path_pat : prel vr path_pat path_pat.
  Proof. intros. unfold path_pat. go. Qed.
  Hint Resolve s_path_pat : shift.
  Lemma s_tuple_pat_body : forall has_comma has_pat has_rest, prel vr (tuple_pat_body has_comma has_pat has_rest) (tuple_pat_body has_comma has_pat has_rest).
  Proof. intros. unfold tuple_pat_body. go. Qed.
  Hint Resolve s_tuple_pat_body : shift.
  Lemma s_tuple_pat : prel vr tuple_pat tuple_pat.
  Proof. intros. unfold tuple_pat. go. Qed.
  Hint Resolve s_tuple_pat : shift.
  Lemma s_pattern_body : prel vr pattern_body pattern_body.
  Proof. intros. unfold pattern_body. go. Qed.
  Hint Resolve s_pattern_body : shift.
  Lemma s_bump_address : prel vr bump_address bump_address.
  Proof. intros. unfold bump_address. go. Qed.
  Hint Resolve s_bump_address : shift.
  Lemma s_address_lit : prel vr address_lit address_lit.
  Proof. intros. unfold address_lit. go. Qed.
  Hint Resolve s_address_lit : shift.
  Lemma s_literal : prel vr literal literal.
  Proof. intros. unfold literal. go. Qed.
  Hint Resolve s_literal : shift.
  Lemma s_record_expr_fields_body : prel vr record_expr_fields_body record_expr_fields_body.
  Proof. intros. unfold record_expr_fields_body. go. Qed.
  Hint Resolve s_record_expr_fields_body : shift.
  Lemma s_record_expr_field_list : prel vr record_expr_field_list record_expr_field_list.
  Proof. intros. unfold record_expr_field_list. go. Qed.
  Hint Resolve s_record_expr_field_list : shift.
  Lemma s_path_expr : prel vr path_expr path_expr.
  Proof. intros. unfold path_expr. go. Qed.
  Hint Resolve s_path_expr : shift.
  Lemma s_paren_body : prel vr paren_body paren_body.
  Proof. intros. unfold paren_body. go. Qed.
  Hint Resolve s_paren_body : shift.
  Lemma s_paren_expr : prel vr paren_expr paren_expr.
  Proof. intros. unfold paren_expr. go. Qed.
  Hint Resolve s_paren_expr : shift.
  Lemma s_atom_expr : prel vr atom_expr atom_expr.
  Proof. intros. unfold atom_expr. go. Qed.
  Hint Resolve s_atom_expr : shift.
  Lemma s_current_op : prel vr current_op current_op.
  Proof. intros. unfold current_op. go. Qed.
  Hint Resolve s_current_op : shift.
  Lemma s_args_body : prel vr args_body args_body.
  Proof. intros. unfold args_body. go. Qed.
  Hint Resolve s_args_body : shift.
  Lemma s_arg_list : prel vr arg_list arg_list.
  Proof. intros. unfold arg_list. go. Qed.
  Hint Resolve s_arg_list : shift.
  Lemma s_call_expr : forall lhs lhs', vr lhs lhs' -> prel vr (call_expr lhs) (call_expr lhs').
  Proof. intros. unfold call_expr. go. Qed.
  Hint Resolve s_call_expr : shift.
  Lemma s_field_expr : forall lhs lhs', vr lhs lhs' -> prel vr (field_expr lhs) (field_expr lhs').
  Proof. intros. unfold field_expr. go. Qed.
  Hint Resolve s_field_expr : shift.
  Lemma s_postfix_body : forall lhs lhs', vr lhs lhs' -> prel vr (postfix_body lhs) (postfix_body lhs').
  Proof. intros. unfold postfix_body. go. Qed.
  Hint Resolve s_postfix_body : shift.
  Lemma s_lhs_ : prel vr lhs_ lhs_.
  Proof. intros. unfold lhs_. go. Qed.
  Hint Resolve s_lhs_ : shift.
  Lemma s_expr_bp_body : forall bp, prel vr (expr_bp_body bp) (expr_bp_body bp).
  Proof. intros. unfold expr_bp_body. go. Qed.
  Hint Resolve s_expr_bp_body : shift.
  Lemma s_expr_bp_loop_body : forall bp lhs lhs', vr lhs lhs' -> prel vr (expr_bp_loop_body bp lhs) (expr_bp_loop_body bp lhs').
  Proof. intros. unfold expr_bp_loop_body. go. Qed.
  Hint Resolve s_expr_bp_loop_body : shift.
  Lemma s_stmt_semi : forall with_semi, prel vr (stmt_semi with_semi) (stmt_semi with_semi).
  Proof. intros. unfold stmt_semi. go. Qed.
  Hint Resolve s_stmt_semi : shift.
  Lemma s_let_stmt : forall m m' with_semi, vr m m' -> prel vr (let_stmt m with_semi) (let_stmt m' with_semi).
  Proof. intros. unfold let_stmt. go. Qed.
  Hint Resolve s_let_stmt : shift.
  Lemma s_stmt : forall with_semi, prel vr (stmt with_semi) (stmt with_semi).
  Proof. intros. unfold stmt. go. Qed.
  Hint Resolve s_stmt : shift.
  Lemma s_expr_block_contents_body : prel vr expr_block_contents_body expr_block_contents_body.
  Proof. intros. unfold expr_block_contents_body. go. Qed.
  Hint Resolve s_expr_block_contents_body : shift.
  Lemma s_block_contents_body : prel vr block_contents_body block_contents_body.
  Proof. intros. unfold block_contents_body. go. Qed.
  Hint Resolve s_block_contents_body : shift.
  Lemma s_record_field : prel vr record_field record_field.
  Proof. intros. unfold record_field. go. Qed.
  Hint Resolve s_record_field : shift.
  Lemma s_record_fields_body : prel vr record_fields_body record_fields_body.
  Proof. intros. unfold record_fields_body. go. Qed.
  Hint Resolve s_record_fields_body : shift.
  Lemma s_record_field_list : prel vr record_field_list record_field_list.
  Proof. intros. unfold record_field_list. go. Qed.
  Hint Resolve s_record_field_list : shift.
  Lemma s_struct_ : forall m m', vr m m' -> prel vr (struct_ m) (struct_ m').
  Proof. intros. unfold struct_. go. Qed.
  Hint Resolve s_struct_ : shift.
  Lemma s_opt_ret_type : prel vr opt_ret_type opt_ret_type.
  Proof. intros. unfold opt_ret_type. go. Qed.
  Hint Resolve s_opt_ret_type : shift.
  Lemma s_function_def : forall m m', vr m m' -> prel vr (function_def m) (function_def m').
  Proof. intros. unfold function_def. go. Qed.
  Hint Resolve s_function_def : shift.
  Lemma s_opt_item : forall m m', vr m m' -> prel vr (opt_item m) (opt_item m').
  Proof. intros. unfold opt_item. go. Qed.
  Hint Resolve s_opt_item : shift.
  Lemma s_item : prel vr Grammar.item Grammar.item.
  Proof. intros. unfold Grammar.item. go. Qed.
  Hint Resolve s_item : shift.
  Lemma s_items_body : prel vr items_body items_body.
  Proof. intros. unfold items_body. go. Qed.
  Hint Resolve s_items_body : shift.
  Lemma s_item_list : prel vr item_list item_list.
  Proof. intros. unfold item_list. go. Qed.
  Hint Resolve s_item_list : shift.
  Lemma s_address_ident_r : forall recovery, prel vr (address_ident_r recovery) (address_ident_r recovery).
  Proof. intros. unfold address_ident_r. go. Qed.
  Hint Resolve s_address_ident_r : shift.
  Lemma s_module : prel vr module module.
  Proof. intros. unfold module. go. Qed.
  Hint Resolve s_module : shift.
  Lemma s_address_items_body : prel vr address_items_body address_items_body.
  Proof. intros. unfold address_items_body. go. Qed.
  Hint Resolve s_address_items_body : shift.
  Lemma s_address_item_list : prel vr address_item_list address_item_list.
  Proof. intros. unfold address_item_list. go. Qed.
  Hint Resolve s_address_item_list : shift.
  Lemma s_script : prel vr script script.
  Proof. intros. unfold script. go. Qed.
  Hint Resolve s_script : shift.
  Lemma s_address : prel vr address address.
  Proof. intros. unfold address. go. Qed.
  Hint Resolve s_address : shift.
  Lemma s_root_body : prel vr root_body root_body.
  Proof. intros. unfold root_body. go. Qed.
  Hint Resolve s_root_body : shift.
  Lemma s_root : prel vr root root.
  Proof. intros. unfold root. go. Qed.
  Hint Resolve s_root : shift.
  Lemma s_body f f' : frel f f' -> prel (rrel f f') (body f) (body f').
  Proof.
    intros H. destruct f, f'; cbn in H; try contradiction; try discriminate H; try (injection H as; subst);
      try match type of H with _ /\ _ => destruct H as [<- H] end;
      match goal with
      | |- prel _ ?p ?q => let p' := eval cbn [body] in p in let q' := eval cbn [body] in q in change (prel vr p' q')
      end; auto with shift.
  Qed.

  (** ** Two runs over the same tokens *)
  Record srel (s s' : pstate) : Prop := {
    sr_lex : exists rem k, lside (ps_lexer s) rem k /\ lside (ps_lexer s') rem k;
    sr_events : exists X, ps_events s = P ++ X /\ ps_events s' = P' ++ X;
    sr_steps : ps_steps s' <= ps_steps s
  }.
  Lemma set_past {A} (l r : list A) x v : set_nth (l ++ r) (length l + x) v = l ++ set_nth r x v.
  Proof. induction l as [|y l IH]; [reflexivity|]. cbn [app length Nat.add set_nth]. rewrite IH. reflexivity. Qed.
  Lemma nth_past {A} (l r : list A) x : nth_error (l ++ r) (length l + x) = nth_error r x.
  Proof. rewrite nth_error_app2 by lia. f_equal. lia. Qed.
  Lemma srel_events s s' X : srel s s' -> srel (with_events s (P ++ X)) (with_events s' (P' ++ X)).
  Proof. intros [L _ St]. constructor; cbn [with_events ps_lexer ps_events ps_steps]; eauto. Qed.
  Lemma srel_push s s' e : srel s s' -> srel (push_event s e) (push_event s' e).
  Proof.
    intros [L (X & E & E') St]. constructor; cbn [push_event ps_lexer ps_events ps_steps]; auto.
    exists (X ++ [e]). rewrite E, E', !app_assoc. auto.
  Qed.
  Lemma lower_steps k s s' : srel s s' -> assert_ (ps_steps s <=? k) = Ok tt -> assert_ (ps_steps s' <=? k) = Ok tt.
  Proof.
    intros [_ _ St] H. destruct (N.leb_spec (ps_steps s) k) as [L|]; [|discriminate H].
    destruct (N.leb_spec (ps_steps s') k) as [|G]; [reflexivity|]. exfalso. clear H. lia.
  Qed.
  Lemma look_same lx lx' rem k n tok : lside lx rem k -> lside lx' rem k -> lx_lookahead_nth lx n = Ok tok ->
    exists tok', lx_lookahead_nth lx' n = Ok tok' /\ t_kind tok' = t_kind tok.
  Proof.
    intros L L' H. destruct n as [|[|[|n]]].
    - cbn [lx_lookahead_nth] in *. injection H as <-. eexists. split; [reflexivity|]. rewrite (cur_side _ _ _ L), (cur_side _ _ _ L'). reflexivity.
    - destruct (look1_side _ _ _ L) as (x & E & X). destruct (look1_side _ _ _ L') as (y & E' & Y). rewrite E in H. injection H as <-. exists y. split; [exact E'|congruence].
    - destruct (look2_side _ _ _ L) as (x & E & X). destruct (look2_side _ _ _ L') as (y & E' & Y). rewrite E in H. injection H as <-. exists y. split; [exact E'|congruence].
    - discriminate H.
  Qed.
  Lemma bump_same lx lx' rem k lx1 : lside lx rem k -> lside lx' rem k -> lx_bump lx = Ok lx1 ->
    exists lx1', lx_bump lx' = Ok lx1' /\ exists rem1 k1, lside lx1 rem1 k1 /\ lside lx1' rem1 k1.
  Proof.
    intros L L' H. destruct (bump_one _ _ _ L) as (l & r & B & S & K & C). destruct (bump_one _ _ _ L') as (l' & r' & B' & S' & K' & C').
    rewrite B in H. injection H as <-. exists l'. split; [exact B'|]. exists r, (cur_kind r). split; [exact S|].
    enough (r = r') as -> by exact S'.
    destruct C as [(E & _ & ->)|(w & tr & E & F)]; destruct C' as [(E' & _ & ->)|(w' & tr' & E' & F')]; try congruence.
    rewrite E in E'. injection E' as _ E'. clear - E' F F' K K'. revert tr' F' E'. induction F as [|p tr Hp F IH]; intros tr' F' E'.
    - destruct F' as [|q tr' Hq F']; [exact E'|]. cbn [app] in E'. subst r. cbn [cur_kind] in K. unfold trivia_piece in Hq. congruence.
    - destruct F' as [|q tr' Hq F']; [cbn [app] in E'; subst r'; cbn [cur_kind] in K'; unfold trivia_piece in Hp; congruence|].
      cbn [app] in E'. injection E' as _ E'. eauto.
  Qed.

  Lemma interp_shift (rec rec' : forall f, pstate -> res (fn_ret f * pstate)) :
    (forall f f' s s' a s1, frel f f' -> srel s s' -> rec f s = Ok (a, s1) -> exists a' s1', rec' f' s' = Ok (a', s1') /\ rrel f f' a a' /\ srel s1 s1') ->
    forall A A' (R : A -> A' -> Prop) p p', prel R p p' -> forall s s' a s1, srel s s' -> interp rec p s = Ok (a, s1) ->
      exists a' s1', interp rec' p' s' = Ok (a', s1') /\ R a a' /\ srel s1 s1'.
  Proof.
    intros HR A A' R p p' H. induction H as [x x' H|n k k' H IH|k k' H IH|k k' H IH|k k' H IH|kk k k' H IH|msg k k' H IH
      |m m' kk k k' M H IH|m m' k k' M H IH|c c' k k' C H IH|b k k' H IH|f f' k k' F H IH]; intros s s' a s1 Z E; cbn [interp] in *.
    - injection E as <- <-. eauto.
    - apply bind_ok in E as ([y s2] & E1 & E). cbn [exec] in *. unfold exec_nth in *. apply bind_ok in E1 as ([] & A1 & E1).
      apply bind_ok in E1 as ([] & A2 & E1). apply bind_ok in E1 as (tok & A3 & E1). injection E1 as <- <-.
      rewrite A1, (lower_steps _ _ _ Z A2). cbn [bind]. destruct (sr_lex _ _ Z) as (rem & kd & L & L').
      destruct (look_same _ _ _ _ _ _ L L' A3) as (tok' & -> & Ek). cbn [bind]. rewrite Ek. eapply IH; [|exact E].
      destruct Z as [? ? St]. constructor; cbn [ps_lexer ps_events ps_steps]; auto. clear - St. lia.
    - apply bind_ok in E as ([y s2] & E1 & E). cbn [exec bind] in *. injection E1 as <- <-. destruct (sr_lex _ _ Z) as (rem & kd & L & L').
      rewrite (cur_side _ _ _ L) in E. rewrite (cur_side _ _ _ L'). eauto.
    - apply bind_ok in E as ([y s2] & E1 & E). cbn [exec] in *. destruct (sr_lex _ _ Z) as (rem & kd & L & L').
      rewrite (text_side _ _ _ L) in E1. rewrite (text_side _ _ _ L'). cbn [bind] in *. injection E1 as <- <-. eauto.
    - apply bind_ok in E as ([y s2] & E1 & E). cbn [exec bind] in *. unfold exec_start in *. injection E1 as <- <-.
      eapply IH; [|apply srel_push; exact Z|exact E]. destruct (sr_events _ _ Z) as (X & -> & ->). exists (length X). rewrite !app_length. auto.
    - apply bind_ok in E as ([y s2] & E1 & E). cbn [exec] in *. unfold exec_do_bump in *. apply bind_ok in E1 as (s3 & E1 & E2). injection E2 as <- <-.
      apply bind_ok in E1 as (lx & E1 & E2). injection E2 as <-. destruct (sr_lex _ _ Z) as (rem & kd & L & L').
      destruct (bump_same _ _ _ _ _ L L' E1) as (lx' & -> & L1). cbn [bind]. eapply IH; [|exact E].
      destruct Z as [? (X & Ex & Ex') St]. constructor; cbn [ps_lexer ps_events ps_steps]; auto.
      exists (X ++ [EToken kk 1]). rewrite Ex, Ex', !app_assoc. auto.
    - apply bind_ok in E as ([y s2] & E1 & E). cbn [exec bind] in *. injection E1 as <- <-. eapply IH; [|exact E]. apply srel_push. exact Z.
    - apply bind_ok in E as ([y s2] & E1 & E). cbn [exec] in *. unfold exec_complete in *. destruct M as (x & -> & ->).
      destruct (sr_events _ _ Z) as (X & Ex & Ex'). rewrite Ex, nth_past in E1. rewrite Ex', nth_past.
      destruct (nth_error X x) as [[k0 fp| | |]|] eqn:N; try discriminate E1. rewrite set_past in E1 |- *. injection E1 as <- <-. cbn [bind].
      eapply IH; [|rewrite <- !app_assoc; apply srel_events; exact Z|rewrite <- app_assoc in E; exact E].
      constructor; cbn [cm_start cm_finish cm_kind]; [exists x; auto|exists (length (set_nth X x (EStart kk fp))); rewrite !app_length; auto|reflexivity].
    - apply bind_ok in E as ([y s2] & E1 & E). cbn [exec] in *. unfold exec_abandon in *. destruct M as (x & -> & ->).
      apply bind_ok in E1 as (s3 & E1 & E2). injection E2 as <- <-. destruct (sr_events _ _ Z) as (X & Ex & Ex'). rewrite Ex, nth_past, app_length in E1.
      rewrite Ex', nth_past, app_length. 
      replace (Nat.eqb (S (length P' + x)) (length P' + length X)) with (Nat.eqb (S (length P + x)) (length P + length X)).
      2:{ destruct (Nat.eqb_spec (S (length P + x)) (length P + length X)); destruct (Nat.eqb_spec (S (length P' + x)) (length P' + length X)); auto; exfalso; lia. }
      destruct (Nat.eqb_spec (S (length P + x)) (length P + length X)) as [Q|Q].
      + destruct (nth_error X x) as [[[] [?|]| | |]|] eqn:N; try discriminate E1. injection E1 as <-. cbn [bind].
        assert (Nx : X <> []) by (intros ->; destruct x; discriminate N).
        rewrite removelast_app in E |- * by exact Nx. eapply IH; [|exact E]. apply srel_events. exact Z.
      + injection E1 as <-. cbn [bind]. eauto.
    - apply bind_ok in E as ([y s2] & E1 & E). cbn [exec] in *. unfold exec_precede, exec_start in *. cbn [fst snd push_event ps_events] in *.
      destruct C as [(x & Ec & Ec') _ _]. rewrite Ec in E1. rewrite Ec'. destruct (sr_events _ _ Z) as (X & Ex & Ex').
      rewrite Ex, <- app_assoc, nth_past, app_length in E1. rewrite Ex', <- app_assoc, nth_past, app_length.
      destruct (nth_error (X ++ [tombstone]) x) as [[k0 fp| | |]|] eqn:N; try discriminate E1.
      apply bind_ok in E1 as (d & D & E1). rewrite set_past in E1. injection E1 as <- <-.
      destruct (Nat.leb_spec (length P + x) (length P + length X)) as [Q|Q]; [|discriminate D]. injection D as <-.
      destruct (Nat.leb_spec (length P' + x) (length P' + length X)) as [Q'|Q']; [|exfalso; lia]. cbn [bind]. rewrite set_past.
      replace (length P' + length X - (length P' + x))%nat with (length P + length X - (length P + x))%nat by lia.
      eapply IH; [exists (length X); auto| |exact E]. apply (srel_events (push_event s tombstone) (push_event s' tombstone)). apply srel_push. exact Z.
    - apply bind_ok in E as ([y s2] & E1 & E). cbn [exec] in *. apply bind_ok in E1 as ([] & A1 & E1). injection E1 as <- <-. rewrite A1. cbn [bind]. eauto.
    - apply bind_ok in E as ([y s2] & E1 & E). destruct (HR _ _ _ _ _ _ F Z E1) as (y' & s2' & -> & Ry & Z2). cbn [bind]. eauto.
  Qed.
  Lemma run_shift n : forall f f' s s' a s1, frel f f' -> srel s s' -> run n f s = Ok (a, s1) ->
    exists a' s1', run n f' s' = Ok (a', s1') /\ rrel f f' a a' /\ srel s1 s1'.
  Proof.
    induction n as [|n IH]; intros f f' s s' a s1 F Z E; [discriminate E|]. cbn [run] in *.
    exact (interp_shift (run n) (run n) IH _ _ _ _ _ (s_body f f' F) s s' a s1 Z E).
  Qed.
End Shift.
