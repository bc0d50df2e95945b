(** Rules of the logic of ParserTotal.v for the helper functions of the
    parser, and the statements proved about the grammar functions. *)
From Coq Require Import String.
From Verif Require Import Base BaseProofs Kinds KindsProofs LexSpec TokenSet Lexer LexerStateProofs
  Parser Grammar TreeSpec ParserLogic ParserTotal SyntaxSpec.
Local Open Scope N_scope.

Section Text.
  Variable t : text.
  Notation tw := (tw t).

  Lemma r_current gs l ks stk sp (Q : _ -> tst -> Prop) : Q (gcur gs) (TS gs l ks stk sp) -> tw current (TS gs l ks stk sp) Q.
  Proof. intros H. apply tw_current. apply tw_ret. exact H. Qed.

  Lemma r_at k gs l ks stk sp (Q : _ -> tst -> Prop) : sp <= 10000 -> Q (kind_eqb (gcur gs) k) (TS gs l ks stk (sp + 1)) ->
    tw (at_ k) (TS gs l ks stk sp) Q.
  Proof. intros L H. apply tw_nth0; [exact L|]. apply tw_ret. exact H. Qed.

  Lemma r_at_ts ts gs l ks stk sp (Q : _ -> tst -> Prop) : Q (ts_has ts (gcur gs)) (TS gs l ks stk sp) -> tw (at_ts ts) (TS gs l ks stk sp) Q.
  Proof. intros H. apply tw_current. apply tw_ret. exact H. Qed.

  Lemma r_do_bump k g gs l ks stk sp (Q : _ -> tst -> Prop) : Q tt (TS gs None (ks ++ [TTok k]) stk sp) ->
    tw (do_bump k) (TS (g :: gs) l ks stk sp) Q.
  Proof. intros H. eapply tw_bump; [reflexivity|]. apply tw_ret. exact H. Qed.

  Lemma r_eat_yes k g gs l ks stk sp (Q : _ -> tst -> Prop) : sp <= 10000 -> kind_eqb (fst (fst g)) k = true ->
    Q true (TS gs None (ks ++ [TTok k]) stk (sp + 1)) -> tw (eat k) (TS (g :: gs) l ks stk sp) Q.
  Proof.
    intros L E H. apply tw_bind. apply r_at; [exact L|]. cbv beta. cbn [gcur]. rewrite E. apply tw_bind.
    apply r_do_bump. apply tw_ret. exact H.
  Qed.

  Lemma r_eat_no k gs l ks stk sp (Q : _ -> tst -> Prop) : sp <= 10000 -> kind_eqb (gcur gs) k = false ->
    Q false (TS gs l ks stk (sp + 1)) -> tw (eat k) (TS gs l ks stk sp) Q.
  Proof.
    intros L E H. apply tw_bind. apply r_at; [exact L|]. cbv beta. rewrite E. apply tw_ret. exact H.
  Qed.

  Lemma r_bump k g gs l ks stk sp (Q : _ -> tst -> Prop) : sp <= 10000 -> kind_eqb (fst (fst g)) k = true ->
    Q tt (TS gs None (ks ++ [TTok k]) stk (sp + 1)) -> tw (bump k) (TS (g :: gs) l ks stk sp) Q.
  Proof.
    intros L E H. apply tw_bind. apply r_eat_yes; [exact L|exact E|]. apply tw_assert; [reflexivity|]. apply tw_ret. exact H.
  Qed.

  Lemma r_expect k g gs l ks stk sp (Q : _ -> tst -> Prop) : sp <= 10000 -> kind_eqb (fst (fst g)) k = true ->
    Q true (TS gs None (ks ++ [TTok k]) stk (sp + 1)) -> tw (expect k) (TS (g :: gs) l ks stk sp) Q.
  Proof.
    intros L E H. apply tw_bind. apply r_eat_yes; [exact L|exact E|]. apply tw_ret. exact H.
  Qed.

  Lemma r_bump_any g gs l ks stk sp (Q : _ -> tst -> Prop) : fst (fst g) <> EOF ->
    Q tt (TS gs None (ks ++ [TTok (fst (fst g))]) stk sp) -> tw bump_any (TS (g :: gs) l ks stk sp) Q.
  Proof.
    intros N H. apply tw_bind. apply r_current. cbv beta. cbn [gcur].
    destruct (kind_eqb (fst (fst g)) EOF) eqn:E; [apply kind_eqb_eq in E; contradiction|]. apply r_do_bump. exact H.
  Qed.

  Lemma r_bump_remap k g gs l ks stk sp (Q : _ -> tst -> Prop) : sp <= 10000 -> fst (fst g) <> EOF ->
    Q tt (TS gs None (ks ++ [TTok k]) stk (sp + 1)) -> tw (bump_remap k) (TS (g :: gs) l ks stk sp) Q.
  Proof.
    intros L N H. apply tw_bind. apply tw_nth0; [exact L|]. apply tw_ret. cbn [gcur s_toks tick s_last s_kids s_stack s_spent].
    destruct (kind_eqb (fst (fst g)) EOF) eqn:E; [apply kind_eqb_eq in E; contradiction|]. apply r_do_bump. exact H.
  Qed.

  Lemma r_text g gs l ks stk sp (Q : _ -> tst -> Prop) : Q (snd (fst g)) (TS (g :: gs) l ks stk sp) -> tw current_text (TS (g :: gs) l ks stk sp) Q.
  Proof. intros H. eapply tw_text; [reflexivity|]. apply tw_ret. exact H. Qed.

  Lemma r_start gs l ks stk sp (Q : _ -> tst -> Prop) : (forall m, Q m (TS gs None [] (Open m None ks :: stk) sp)) ->
    tw start (TS gs l ks stk sp) Q.
  Proof. intros H. apply tw_start. intros m. apply tw_ret. apply H. Qed.

  Lemma r_complete m k x before gs l ks stk sp (Q : _ -> tst -> Prop) : k <> TOMBSTONE ->
    (forall c, Q c (TS gs (Some c) (before ++ [TNode k (opt_tree x ++ ks)]) stk sp)) ->
    tw (complete m k) (TS gs l ks (Open m x before :: stk) sp) Q.
  Proof. intros N H. eapply tw_complete; [reflexivity|reflexivity|exact N|]. intros c. apply tw_ret. apply H. Qed.

  Lemma r_precede c gs ks x stk sp (Q : _ -> tst -> Prop) : (forall m, Q m (TS gs None [] (Open m (Some x) ks :: stk) sp)) ->
    tw (precede c) (TS gs (Some c) (ks ++ [x]) stk sp) Q.
  Proof. intros H. eapply tw_precede; [reflexivity|reflexivity|]. intros m. apply tw_ret. apply H. Qed.

  Lemma r_assert (p : prog bool) st (Q : _ -> tst -> Prop) : tw p st (fun b st' => b = true /\ Q tt st') -> tw (assert_p p) st Q.
  Proof.
    intros H. apply tw_bind. eapply tw_mono; [exact H|]. cbv beta. intros b st' [-> X]. apply tw_assert; [reflexivity|].
    apply tw_ret. exact X.
  Qed.

  Lemma r_nth1 g gs l ks stk sp (Q : _ -> tst -> Prop) : sp <= 10000 -> (fst (fst g) = IDENT \/ fst (fst g) = INTEGER_NUMBER) ->
    (forall x, (forall o, opens o -> kind_eqb x o = kind_eqb (gcur gs) o) -> Q x (TS (g :: gs) l ks stk (sp + 1))) ->
    tw (nth_ 1) (TS (g :: gs) l ks stk sp) Q.
  Proof. intros L K H. apply tw_nth1; [exact L|exact K|]. intros x Hx. apply tw_ret. apply H. exact Hx. Qed.

  Lemma r_nth2 gs l ks stk sp (Q : _ -> tst -> Prop) : sp <= 10000 ->
    (forall x, (gcur gs = COLON_COLON -> gcur (tl gs) = IDENT -> x <> STAR /\ x <> L_BRACE) -> Q x (TS gs l ks stk (sp + 1))) ->
    tw (nth_ 2) (TS gs l ks stk sp) Q.
  Proof. intros L H. apply tw_nth2; [exact L|]. intros x Hx. apply tw_ret. apply H. exact Hx. Qed.

  Lemma r_name rec g gs l ks stk sp (Q : _ -> tst -> Prop) : sp + 2 <= 10000 -> fst (fst g) = IDENT ->
    (forall l, Q tt (TS gs l (ks ++ [name_node]) stk (sp + 2))) -> tw (name_r rec) (TS (g :: gs) l ks stk sp) Q.
  Proof.
    intros L E H. apply tw_bind. apply r_at; [lia|]. cbv beta. cbn [gcur]. rewrite E. cbn [kind_eqb].
    change (kind_eqb IDENT IDENT) with true. cbv iota. apply tw_bind. apply r_start. intros m. apply tw_bind.
    apply r_bump; [lia|rewrite E; reflexivity|]. apply tw_bind. apply r_complete; [discriminate|]. intros c. apply tw_ret.
    replace (sp + 1 + 1) with (sp + 2) by lia. apply H.
  Qed.

  Lemma r_name_ref g gs l ks stk sp (Q : _ -> tst -> Prop) : sp + 2 <= 10000 -> fst (fst g) = IDENT ->
    (forall l, Q tt (TS gs l (ks ++ [name_ref_node]) stk (sp + 2))) -> tw name_ref (TS (g :: gs) l ks stk sp) Q.
  Proof.
    intros L E H. apply tw_bind. apply r_at; [lia|]. cbv beta. cbn [gcur]. rewrite E.
    change (kind_eqb IDENT IDENT) with true. cbv iota. apply tw_bind. apply r_start. intros m. apply tw_bind.
    apply r_bump; [lia|rewrite E; reflexivity|]. apply tw_bind. apply r_complete; [discriminate|]. intros c. apply tw_ret.
    replace (sp + 1 + 1) with (sp + 2) by lia. apply H.
  Qed.
End Text.

(** ** Statements *)
(** the groups [gs] are the tokens of the forest [f] *)
Definition fits (f : list tree) (gs : list group) : Prop :=
  Forall2 (fun k g => stands_for k (fst g)) (flat_map leaves f) gs.
Definition size (gs : list group) : N := N.of_nat (length gs).
(** [k] is none of [ks] *)
Definition off (ks : list kind) (k : kind) : Prop := existsb (kind_eqb k) ks = false.
Definition starts (ks : list kind) (f : list tree) : Prop := exists k r, flat_map leaves f = k :: r /\ In k ks.

(** back with [f] behind the earlier children, having spent at most [b - a] *)
Definition fin {A} (rest : list group) (kids f : forest) (stk : list open_) (a b : N) : A -> tst -> Prop :=
  fun _ st => exists l sp, st = TS rest l (kids ++ f) stk sp /\ sp + a <= b.
(** the same, returning the marker of the last tree *)
Definition finc (rest : list group) (kids f : forest) (stk : list open_) (a b : N) : cmark -> tst -> Prop :=
  fun c st => exists sp, st = TS rest (Some c) (kids ++ f) stk sp /\ sp + a <= b.
Definition fino (rest : list group) (kids f : forest) (stk : list open_) (a b : N) : option cmark -> tst -> Prop :=
  fun o st => exists c, o = Some c /\ finc rest kids f stk a b c st.

Section Statements.
  Variable t : text.
  Notation tw := (tw t).

  (** [s_prog p ok slack a b f]: [p] reads [f], if the token behind it is [ok] *)
  Definition s_prog {A} (p : prog A) (ok : kind -> Prop) (slack a b : N) (f : list tree) : Prop :=
    forall gs rest l kids stk sp, fits f gs -> ok (gcur rest) -> sp + 5 * size gs + slack <= 10000 ->
      tw p (TS (gs ++ rest) l kids stk sp) (fin rest kids f stk a (sp + 5 * size gs + b)).
  (** the same, in a marker that was opened before *)
  Definition s_open {A} (p : nat -> prog A) (ok : kind -> Prop) (slack a b : N) (f : list tree) : Prop :=
    forall gs rest l kids stk sp m, fits f gs -> ok (gcur rest) -> sp + 5 * size gs + slack <= 10000 ->
      tw (p m) (TS (gs ++ rest) l [] (Open m None kids :: stk) sp) (fin rest kids f stk a (sp + 5 * size gs + b)).

  Definition any (k : kind) : Prop := True.

  Definition s_module : list tree -> Prop := s_prog module any 10 3 0.
  Definition s_modules : list tree -> Prop := s_prog (call F_address_items) (eq R_BRACE) 13 0 2.
  Definition s_items : list tree -> Prop := s_prog (call F_items) (eq R_BRACE) 13 0 2.
  Definition s_item : list tree -> Prop := s_prog item (off [SEMICOLON]) 11 3 0.
  Definition s_opt_item : list tree -> Prop := s_open opt_item any 10 4 0.
  Definition s_field : list tree -> Prop := s_prog record_field (off [COLON_COLON]) 10 5 0.
  Definition s_fields : list tree -> Prop := s_prog (call F_record_fields) (eq R_BRACE) 13 0 3.
  Definition s_type : list tree -> Prop := s_prog (call F_type) (off [COLON_COLON]) 10 0 0.
  Definition s_type_param : list tree -> Prop := s_prog generic_param (off [COLON; PLUS]) 10 0 0.
  Definition s_type_params : list tree -> Prop := s_prog (call F_generic_params) (eq GT) 13 0 5.
  Definition s_bounds : list tree -> Prop := s_prog (call F_bounds) (off [PLUS]) 10 0 0.
  Definition s_param : list tree -> Prop := s_open param (off [COLON_COLON]) 10 5 0.
  Definition s_params : list tree -> Prop := s_prog (call F_params) (eq R_PAREN) 13 0 3.
  Definition s_pattern : list tree -> Prop := s_prog (call F_pattern) (off [L_BRACE]) 10 0 0.
  Definition s_field_pat : list tree -> Prop := s_prog record_pat_field (off [L_BRACE; COLON]) 10 0 0.
  Definition s_field_pats : list tree -> Prop := s_prog (call F_record_pat_fields) (eq R_BRACE) 15 0 5.
  Definition s_stmts : list tree -> Prop := s_prog (call F_block_contents) (eq R_BRACE) 14 0 5.
  Definition s_args : list tree -> Prop := s_prog (call F_args) (eq R_PAREN) 13 0 4.
  Definition s_inits : list tree -> Prop := s_prog (call F_record_expr_fields) (eq R_BRACE) 15 0 6.
  Definition s_file : list tree -> Prop := s_prog (call F_root) (eq EOF) 15 0 1.

  Definition s_block (f : list tree) : Prop :=
    forall gs rest l kids stk sp, fits f gs -> sp + 5 * size gs + 10 <= 10000 ->
      tw block_expr_unchecked (TS (gs ++ rest) l kids stk sp) (finc rest kids f stk 1 (sp + 5 * size gs)).
  Definition s_atom (f : list tree) : Prop :=
    forall gs rest l kids stk sp, fits f gs -> off [L_BRACE; COLON_COLON] (gcur rest) -> sp + 5 * size gs + 10 <= 10000 ->
      tw atom_expr (TS (gs ++ rest) l kids stk sp) (fino rest kids f stk 0 (sp + 5 * size gs)).
  (** a path may go on *)
  Definition s_path (f : list tree) : Prop :=
    forall gs rest l kids stk sp (Q : _ -> tst -> Prop), fits f gs -> sp + 5 * size gs + 10 <= 10000 ->
      (forall c sp', sp' + 2 <= sp + 5 * size gs ->
         tw (call (F_path_for_qualifier c)) (TS rest (Some c) (kids ++ f) stk sp') Q) ->
      tw path (TS (gs ++ rest) l kids stk sp) Q.
  (** calls and field accesses may follow *)
  Definition s_postfix (f : list tree) : Prop :=
    forall gs rest l kids stk sp (Q : _ -> tst -> Prop), fits f gs -> off [L_BRACE; COLON_COLON] (gcur rest) -> sp + 5 * size gs + 10 <= 10000 ->
      (forall c sp', sp' <= sp + 5 * size gs -> tw (call (F_postfix c)) (TS rest (Some c) (kids ++ f) stk sp') Q) ->
      tw atom_expr (TS (gs ++ rest) l kids stk sp)
        (fun a st => match a with Some c => tw (call (F_postfix c)) st Q | None => False end).
  (** an operator may follow *)
  Definition expr_end := [L_PAREN; DOT; L_BRACE; COLON_COLON].
  Definition s_operand (bp : N) (ok : kind -> Prop) (f : list tree) : Prop :=
    forall gs rest l kids stk sp (Q : _ -> tst -> Prop), fits f gs -> off expr_end (gcur rest) -> ok (gcur rest) ->
      sp + 5 * size gs + 10 <= 10000 ->
      (forall c sp', sp' <= sp + 5 * size gs -> tw (call (F_expr_bp_loop bp c)) (TS rest (Some c) (kids ++ f) stk sp') Q) ->
      tw (call (F_expr_bp bp)) (TS (gs ++ rest) l kids stk sp) Q.
  Definition s_unary (f : list tree) : Prop := forall bp, s_operand bp any f.
  (** no operator that binds tighter than [p] *)
  Definition weak (p : N) (k : kind) : Prop := forall q, prec k = Some q -> q <= p.
  Definition s_expr (p : N) (f : list tree) : Prop := forall bp, 1 <= bp -> bp <= p -> s_operand bp (weak p) f.
  (** the loop over the patterns of a tuple says what it has seen *)
  Definition s_patterns (f : list tree) : Prop :=
    forall gs rest l kids stk sp c p, fits f gs -> gcur rest = R_PAREN -> sp + 5 * size gs + 14 <= 10000 ->
      tw (call (F_tuple_pat c p false)) (TS (gs ++ rest) l kids stk sp)
        (fun a st => a = (c || Nat.ltb 1 (length f), p || Nat.ltb 0 (length f), false) /\
                     fin rest kids f stk 0 (sp + 5 * size gs + 6) a st).

  Definition s_commas (x : nt) : list tree -> Prop :=
    match x with
    | Field => s_fields
    | TypeParam => s_type_params
    | Param => s_params
    | Pattern_ => s_patterns
    | FieldPat => s_field_pats
    | Expr p => fun f => p = 1 -> s_args f
    | FieldInit => s_inits
    | _ => fun _ => True
    end.

  (** the parts that have no function of their own *)
  Definition s_module_body (f : list tree) : Prop :=
    f = [TTok SEMICOLON] \/ exists is, f = [TNode ITEM_LIST (TTok L_BRACE :: is ++ [TTok R_BRACE])] /\ s_items is.
  Definition s_address_name (f : list tree) : Prop := f = [TTok DIEM_ADDRESS] \/ f = [TTok IDENT].
  Definition s_struct_body (f : list tree) : Prop :=
    f = [TTok SEMICOLON] \/ exists fs, f = [TNode RECORD_FIELD_LIST (TTok L_BRACE :: fs ++ [TTok R_BRACE])] /\ s_fields fs.
  Definition s_generics (f : list tree) : Prop :=
    f = [] \/ exists ps, f = [TNode GENERIC_PARAM_LIST (TTok LT :: ps ++ [TTok GT])] /\ s_type_params ps.
  Definition s_ret (f : list tree) : Prop :=
    f = [] \/ exists ty, f = [TNode RET_TYPE [TTok COLON; ty]] /\ s_type [ty].
  Definition s_annot (f : list tree) : Prop := f = [] \/ exists ty, f = [TTok COLON; ty] /\ s_type [ty].
  Definition s_init (f : list tree) : Prop := f = [] \/ exists e, f = [TTok EQ; e] /\ s_expr 1 [e].
  Definition s_let (f : list tree) : Prop :=
    exists p a i, f = TTok LET_KW :: p :: a ++ i /\ s_pattern [p] /\ s_annot a /\ s_init i.
  Definition s_field_init (f : list tree) : Prop :=
    f = [TNode RECORD_EXPR_FIELD [TNode PATH_EXPR [TNode PATH [segment_node]]]] /\
      s_expr 1 [TNode PATH_EXPR [TNode PATH [segment_node]]] \/
    exists e, f = [TNode RECORD_EXPR_FIELD [name_ref_node; TTok COLON; e]] /\ s_expr 1 [e].
  (** one round of the loop over the file *)
  Definition s_top (f : list tree) : Prop :=
    forall gs rest l kids stk sp (Q : _ -> tst -> Prop), fits f gs -> sp + 5 * size gs + 14 <= 10000 ->
      (forall l' sp', sp' <= sp + 5 * size gs -> tw (call F_root) (TS rest l' (kids ++ f) stk sp') Q) ->
      tw (call F_root) (TS (gs ++ rest) l kids stk sp) Q.

  Definition stm (x : nt) : list tree -> Prop :=
    match x with
    | File => s_file
    | TopItem => s_top
    | Modules => s_modules
    | Module => s_module
    | ModuleBody => s_module_body
    | AddressName => s_address_name
    | Items => s_items
    | Item => s_item
    | Struct | Function => s_opt_item
    | StructBody => s_struct_body
    | Field => s_field
    | Generics => s_generics
    | TypeParam => s_type_param
    | Bounds => s_bounds
    | Param => s_param
    | RetType => s_ret
    | Type_ => s_type
    | Path_ => s_path
    | Block => s_block
    | Stmts => s_stmts
    | Let_ => s_let
    | TypeAnnot => s_annot
    | Init => s_init
    | Pattern_ => s_pattern
    | FieldPat => s_field_pat
    | Expr p => s_expr p
    | Unary => s_unary
    | Postfix => s_postfix
    | Atom => s_atom
    | FieldInit => s_field_init
    | Commas x => s_commas x
    end.
End Statements.
