(** Property C74: unfinished programs get the tree they would have and one
    message for each missing part (GapSpec.v). *)
From Coq Require Import String.
From Verif Require Import Base BaseProofs Kinds KindsProofs LexSpec Lexer Parser Grammar Sink TreeSpec GreenSpec
  SinkProofs ParseProofs SyntaxSpec AcceptTop OperatorProofs LenientTop GapSpec GapPhrases GapTop ExactProofs PropLexer PropSyntax.
Local Open Scope N_scope.

(** ** C74.  An unfinished program, of at most 1996 tokens, missing parts and
    places where statements or expressions follow each other unseparated, is
    parsed to exactly the tree the grammar of unfinished programs gives it, with
    exactly one message for each missing part, in the order of the text.  The
    message stands where the part is missing: behind the tokens the tree has in
    front of the gap, and next to the last of them or to the token that follows. *)
Theorem C74_unfinished_programs_are_parsed : forall t f,
  unfinished t f -> ascii_strings t -> tlen t < u32_bound ->
  extent f <= 1996 ->
  exists g errs, parse_text t = Ok (g, errs) /\ strip g = [TNode SOURCE_FILE (flat_map unmarked f)] /\
    map se_msg errs = flat_map complaints f /\
    forall ws, token_stream t ws -> Forall2 (beside ws) (noted 0 f) (map (fun e => (se_msg e, se_pos e)) errs).
Proof. exact unfinished_parse. Qed.

(** Nothing is lost: the finished programs of C48 are among these, and they have
    no missing parts. *)
Lemma core_unfinished t f : core_program t f -> unfinished t f /\ flat_map unmarked f = f /\ flat_map complaints f = [].
Proof.
  intros [G W]. destruct (wholes_no_marks f (accepts_whole _ _ _ (gen_lenient true _ _ G))) as (A & B & D). split; [|auto].
  split; [apply gen_gap; exact G|exact W|]. rewrite A. apply tokens_recover.
Qed.
Lemma loose_app a b : loose (a ++ b) = (loose a + loose b)%nat.
Proof. unfold loose. induction a as [|x a IH]; [reflexivity|]. cbn [app fold_right]. lia. Qed.
Lemma loose_cons x f : loose (x :: f) = (loose1 x + loose f)%nat.
Proof. reflexivity. Qed.
Ltac loosen := cbn [app] in *; unfold segment_node, name_node, name_ref_node in *;
  repeat first [rewrite loose_app in * | rewrite loose_cons in * | rewrite loose_node in *];
  cbn [loose loose1 fold_right unseparated tl length Nat.sub app] in *.
Lemma gen_tight x f : gen x f -> loose f = O /\ (x = Stmts -> forall c, joints (f ++ [TTok c]) = O).
Proof.
  induction 1; (split; [|try (intros X; discriminate X)]).
  all: repeat match goal with H : _ /\ _ |- _ => destruct H end.
  all: repeat match goal with H : _ = Stmts -> _ |- _ => first [specialize (H eq_refl)|clear H] end.
  all: try solve [loosen; lia].
  all: try (intros c0; cbn [app joints unended]; rewrite ?existsb_app; cbn [existsb]; rewrite ?orb_true_r; cbn [negb]; auto; fail).
  all: loosen.
  all: match goal with H : forall c, joints _ = O |- _ => rewrite H end; lia.
Qed.
Corollary C74_generalises_C48 t f : core_program t f -> ascii_strings t -> tlen t < u32_bound ->
  N.of_nat (length (flat_map leaves f)) <= 1996 ->
  exists g, parse_text t = Ok (g, []) /\ strip g = [TNode SOURCE_FILE f].
Proof.
  intros H A L N. destruct (core_unfinished _ _ H) as (U & E & C).
  destruct (C74_unfinished_programs_are_parsed t f U A L) as (g & errs & P & S & M & _).
  - unfold extent. rewrite C, (proj1 (gen_tight _ _ (cp_tree _ _ H))). cbn [length]. rewrite !Nat.add_0_r. exact N.
  - rewrite E in S. rewrite C in M. exists g. destruct errs; [auto|discriminate M].
Qed.

(** ** A program that is being typed *)
Definition sample_unfinished : text := `"// a file
address { module N }
module M {
  struct S { x: , y: u8 z: & }
  struct { }
  struct 5 { } ;
  fun f(a, b: struct) {
    let = 1;
    let x = ;
    let
    let y: 7 = x. ;
    1 + struct , ;
    f(!);
    ; @;
    let S { a: , b } = - }
  ;
  }
  fun g
  fun ;
}
script {
  fun h(): u8 {
    1 +
".
Definition gap_tokens := Eval vm_compute in cut 1000 sample_unfinished.

Ltac goes := first [apply go_name | apply go_type | apply go_param_type | apply go_params | apply go_block | apply go_body
  | apply go_modules | apply go_pattern | apply go_expr | apply go_address_lit | apply go_address | apply go_comma | apply go_close
  | apply go_field]; cbn; intuition discriminate.
Ltac not_there := let H := fresh in intros H; inversion H; subst; cbn in *; intuition discriminate.

Lemma no_junk first m : junk first m [].
Proof. split; [intros ? ? X; discriminate X|constructor]. Qed.

(** nothing behind [let], then another [let] *)
Lemma let_let l ss : gap Let_ (TTok LET_KW :: l) -> gap Stmts ss ->
  gap Stmts (TNode LET_STMT [TTok LET_KW; TErr m_pattern] :: TNode LET_STMT ((TTok LET_KW :: l) ++ [TTok SEMICOLON]) :: ss).
Proof.
  intros L S. apply h_stmts_let_open; [apply (h_let (TErr m_pattern) [] []); [apply h_pattern_gap|constructor..]| |exact (h_stmts_let _ _ L S)].
  intros k r E. cbn in E. injection E as <- _. intros [X|[(l' & e & X & _)|(_ & X & _)]]; [discriminate X| |discriminate X].
  destruct l' as [|? [|? [|? l']]]; discriminate X.
Qed.

Example sample_is_unfinished : exists f, unfinished sample_unfinished f /\ ascii_strings sample_unfinished /\
  tlen sample_unfinished < u32_bound /\ extent f <= 1996 /\
  flat_map complaints f = [m_address; m_body; m_type; m_comma; m_type; m_name; m_name; m_semi; m_param_type; m_type;
    m_pattern; m_expr; m_pattern; m_type; m_field; m_expr; m_expr; m_expr; m_address_lit; m_pattern; m_expr;
    m_params; m_block; m_name; m_params; m_block; m_semi; m_expr; m_close; m_close].
Proof.
  assert (Path1 : gap Path_ [TNode PATH [segment_node]]) by constructor.
  assert (Ty : gap TypeOf [TNode PATH_TYPE [TNode PATH [segment_node]]]) by (apply h_type, h_type_path, Path1).
  assert (E1 : forall p e, gap Atom [e] -> gap (Expr p) [e]).
  { intros p e H. apply h_expr_unary, h_unary_postfix, h_postfix_atom. exact H. }
  assert (Num : gap Atom [TNode LITERAL [TTok INTEGER_NUMBER]]) by (constructor; cbn; tauto).
  assert (X : gap Postfix [TNode PATH_EXPR [TNode PATH [segment_node]]]) by (apply h_postfix_atom, h_path_expr, Path1).
  assert (F : exists f, gap File f /\
    Forall2 stands_for (flat_map leaves f) (proper (match gap_tokens with Some ws => ws | None => [] end)) /\
    recovers (flat_map row f) EOF /\ loose f = 1%nat /\ flat_map complaints f = [m_address; m_body; m_type; m_comma; m_type; m_name; m_name; m_semi; m_param_type; m_type;
    m_pattern; m_expr; m_pattern; m_type; m_field; m_expr; m_expr; m_expr; m_address_lit; m_pattern; m_expr;
    m_params; m_block; m_name; m_params; m_block; m_semi; m_expr; m_close; m_close]).
  { eexists. split; [|split; [|split; [|split]]].
    - eapply h_file.
      { eapply h_address; [eapply h_address_of_gap, no_junk|].
        eapply h_modules_of; [eapply h_modules; [eapply h_module, h_module_body_gap|constructor]|constructor]. }
      eapply h_file.
      { eapply h_top_module, h_module, h_module_items; [|constructor].
        eapply h_items.
        { eapply h_item_struct, h_struct; [constructor|constructor|eapply h_struct_fields].
          eapply h_commas_more; [eapply h_field, h_type_gap|]. eapply h_commas_gap; [auto|eapply h_field, Ty|].
          eapply h_commas_last, h_field, h_type, h_type_ref, h_type_gap. }
        eapply h_items.
        { eapply h_item_struct, h_struct; [apply h_name_gap|constructor|eapply h_struct_fields, h_commas_nil]. }
        eapply h_items_semi.
        { eapply h_item_struct, h_struct; [eapply (h_name_wrong INTEGER_NUMBER)|constructor|eapply h_struct_fields, h_commas_nil].
          split; [|split]; [cbn; intuition discriminate..|not_there]. }
        eapply h_items.
        { eapply h_item_fun, h_function; [constructor| |constructor|eapply h_body, h_block; [|constructor]].
          - eapply h_params, h_commas_more; [eapply h_param_gap|]. eapply h_commas_last, h_param, (h_type_wrong STRUCT_KW).
            split; [|split]; [cbn; intuition discriminate..|not_there].
          - eapply h_stmts_let; [eapply h_let; [eapply h_pattern_gap|constructor|eapply h_init, E1, Num]|].
            eapply h_stmts_let; [eapply h_let; [eapply h_pattern, h_pat_name|constructor|eapply h_init_gap, no_junk]|].
            eapply let_let; [eapply h_let; [eapply h_pattern, h_pat_name|eapply h_annot, (h_type_wrong INTEGER_NUMBER)|]|].
            { split; [|split]; [cbn; intuition discriminate..|not_there]. }
            { eapply h_init, h_expr_unary, h_unary_postfix, h_dot_gap, X. }
            eapply h_stmts_expr.
            { eapply (h_expr_bin_gap 1 10 _ PLUS [STRUCT_KW; COMMA]); [reflexivity|lia|eapply E1, Num|].
              split; [intros ? ? [= <- <-]; cbn; intuition discriminate|].
              repeat constructor; solve [not_there|discriminate]. }
            eapply h_stmts_expr.
            { eapply h_expr_unary, h_unary_postfix, h_call; [exact X|].
              eapply h_commas_last, h_expr_unary, (h_unary_gap BANG); [cbn; tauto|apply no_junk]. }
            eapply h_stmts_semi. eapply h_stmts_expr.
            { eapply E1, h_address_lit_gap, no_junk. }
            eapply h_stmts_let; [eapply h_let|].
            + eapply h_pattern, h_pat_record, h_commas_more; [eapply h_field_pat, h_pattern_gap|].
              eapply h_commas_last, h_field_pat_short.
            + constructor.
            + eapply h_init, h_expr_unary, (h_unary_gap MINUS [R_BRACE]); [cbn; tauto|].
              split; [intros ? ? [= <- <-]; cbn; intuition discriminate|].
              repeat constructor; solve [not_there|discriminate].
            + constructor. }
        eapply h_items; [eapply h_item_fun, h_function; [constructor|apply h_params_gap|constructor|apply h_body_gap]|].
        eapply h_items_semi; [eapply h_item_fun, h_function; [apply h_name_gap|apply h_params_gap|constructor|apply h_body_gap]|].
        constructor. }
      eapply h_file; [|constructor].
      eapply h_script; [|apply h_close_gap]. eapply h_items; [|constructor].
      eapply h_item_fun, h_function; [constructor|eapply h_params, h_commas_nil|eapply h_ret, Ty|eapply h_body, h_block; [|apply h_close_gap]].
      eapply h_stmts_open; [eapply (h_expr_bin_gap 1 10 _ PLUS []); [reflexivity|lia|eapply E1, Num|apply no_junk]|apply parted_nil|constructor].
    - vm_compute. repeat constructor. all: eexists; reflexivity.
    - cbn -[m_name m_type m_param_type m_params m_block m_body m_modules m_pattern m_expr m_address_lit m_address m_field m_comma
        m_close m_semi skips]. vm_compute skips. cbn [app]. cbn [recovers next]. repeat split; goes.
    - reflexivity.
    - reflexivity. }
  destruct F as (f & G & F & R & Ls & C). exists f.
  assert (L : extent f <= 1996).
  { unfold extent. rewrite (Forall2_len _ _ _ F), C, Ls. vm_compute. discriminate. }
  split; [|split; [apply C18_ascii_in_scope, asciib_ok; vm_compute; reflexivity|split; [vm_compute; reflexivity|auto]]].
  constructor; [exact G| |exact R]. exists (match gap_tokens with Some ws => ws | None => [] end).
  split; [apply (cut_ok 1000); [vm_compute; reflexivity|apply asciib_ok; vm_compute; reflexivity]|].
  split; [exact F|]. layout_of.
Qed.

Print Assumptions C74_unfinished_programs_are_parsed.
Print Assumptions C74_generalises_C48.
