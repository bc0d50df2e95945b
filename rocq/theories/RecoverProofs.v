(** Every grammar function, when it ends, makes a tree of the form RecoverSpec.v
    gives. *)
From Coq Require Import String.
From Verif Require Import Base BaseProofs Kinds KindsProofs TokenSet Lexer LexerProofs LexerStateProofs
  Parser Grammar TreeSpec SyntaxSpec LenientSpec GapSpec RecoverSpec ParserLogic GrammarProofs LenientLogic RecoverLogic.
Local Open Scope N_scope.

(** ** Rules for the helpers of Parser.v *)
Lemma a_at k (Q : bool -> lst -> Prop) st : Q (kind_eqb (l_cur st) k) st -> awp (at_ k) Q st.
Proof. intros H. exact H. Qed.
Lemma a_nth_at k (Q : bool -> lst -> Prop) c n l K s :
  (forall k', Q (kind_eqb k' k) (L c (Some k') l K s)) -> awp (nth_at 1 k) Q (L c n l K s).
Proof. intros H. cbn. intros x. apply H. Qed.
Lemma a_nth1 (Q : kind -> lst -> Prop) c n l K s : (forall k', Q k' (L c (Some k') l K s)) -> awp (nth_ 1) Q (L c n l K s).
Proof. intros H. cbn. intros x. apply H. Qed.
Lemma a_nth2 (Q : kind -> lst -> Prop) st : (forall k', Q k' st) -> awp (nth_ 2) Q st.
Proof. intros H. cbn. intros x. apply H. Qed.
Lemma a_current (Q : kind -> lst -> Prop) st : Q (l_cur st) st -> awp current Q st.
Proof. intros H. exact H. Qed.
Lemma a_current_text (Q : text -> lst -> Prop) st : (forall x, Q x st) -> awp current_text Q st.
Proof. intros H. exact H. Qed.
Lemma a_at_ts ts (Q : bool -> lst -> Prop) st : Q (kind_in (l_cur st) ts) st -> awp (at_ts ts) Q st.
Proof. intros H. unfold at_ts. cbn. rewrite ts_has_spec. exact H. Qed.
Lemma a_start (Q : nat -> lst -> Prop) c n l K s :
  (forall m, Q m (L c n None [] (Open m None K :: s))) -> awp start Q (L c n l K s).
Proof. intros H. exact H. Qed.
Lemma a_error msg (Q : unit -> lst -> Prop) c n l K s : Q tt (L c n None (K ++ [TErr msg]) s) -> awp (error msg) Q (L c n l K s).
Proof. intros H. exact H. Qed.
Lemma a_complete m k (Q : cmark -> lst -> Prop) c n l K i B s : k <> TOMBSTONE -> node_ok k (opt_tree i ++ K) ->
  (forall r, Q r (L c n (Some r) (B ++ [TNode k (opt_tree i ++ K)]) s)) ->
  awp (complete m k) Q (L c n l K (Open m i B :: s)).
Proof. intros H1 H2 H. cbn. auto. Qed.
Lemma a_abandon m (Q : unit -> lst -> Prop) c n l K B s : Q tt (L c n None (B ++ K) s) ->
  awp (abandon m) Q (L c n l K (Open m None B :: s)).
Proof. intros H. cbn. auto. Qed.
Lemma a_precede q (Q : nat -> lst -> Prop) c n K T s : (forall m, Q m (L c n None [] (Open m (Some T) K :: s))) ->
  awp (precede q) Q (L c n (Some q) (K ++ [T]) s).
Proof. intros H. cbn. split; [reflexivity|]. exists K, T. split; [reflexivity|exact H]. Qed.
Lemma a_assert_p p (Q : unit -> lst -> Prop) st : awp p (fun b st' => b = true -> Q tt st') st -> awp (assert_p p) Q st.
Proof. intros H. unfold assert_p. apply awp_bind. cbn. exact H. Qed.

(** [c'] may be the next token, according to what was looked ahead *)
Definition ahead (n : option kind) (c' : kind) : Prop :=
  is_trivia c' = false /\ (forall k, n = Some k -> is_trivia k = false -> c' = k).
Lemma a_eat k (Q : bool -> lst -> Prop) c n l K s : k <> EOF ->
  (c = k -> forall c', ahead n c' -> Q true (L c' None None (K ++ [TTok k]) s)) ->
  (c <> k -> Q false (L c n l K s)) -> awp (eat k) Q (L c n l K s).
Proof.
  intros Hk H1 H2. unfold eat. apply awp_bind. apply a_at. cbn [l_cur].
  destruct (kind_eqb c k) eqn:E.
  - apply kind_eqb_eq in E. subst c. cbn. split; [apply remap_refl|]. split; [exact Hk|].
    intros c' T F. apply H1; [reflexivity|]. split; [exact T|exact F].
  - apply kind_eqb_neq in E. apply H2. exact E.
Qed.
Lemma a_bump k (Q : unit -> lst -> Prop) c n l K s : k <> EOF ->
  (c = k -> forall c', ahead n c' -> Q tt (L c' None None (K ++ [TTok k]) s)) ->
  awp (bump k) Q (L c n l K s).
Proof. intros Hk H. unfold bump. apply a_assert_p. apply a_eat; [exact Hk|auto|]. intros _ E. discriminate. Qed.
Lemma a_expect k (Q : bool -> lst -> Prop) c n l K s : k <> EOF ->
  (c = k -> forall c', ahead n c' -> Q true (L c' None None (K ++ [TTok k]) s)) ->
  (c <> k -> Q false (L c n None (K ++ [TErr (m_token k)]) s)) -> awp (expect k) Q (L c n l K s).
Proof.
  intros Hk H1 H2. unfold expect. apply awp_bind. apply a_eat; [exact Hk| |].
  - intros E c' F. cbn [awp]. auto.
  - intros E. cbv iota. apply awp_bind, a_error. cbn [awp]. exact (H2 E).
Qed.
Lemma a_bump_any (Q : unit -> lst -> Prop) c n l K s :
  (c = EOF -> Q tt (L c n l K s)) ->
  (c <> EOF -> forall c', ahead n c' -> Q tt (L c' None None (K ++ [TTok c]) s)) ->
  awp bump_any Q (L c n l K s).
Proof.
  intros H1 H2. unfold bump_any. apply awp_bind. apply a_current. cbn [l_cur].
  destruct (kind_eqb c EOF) eqn:E.
  - apply kind_eqb_eq in E. apply H1. exact E.
  - apply kind_eqb_neq in E. cbn. split; [apply remap_refl|]. split; [exact E|].
    intros c' T F. apply H2; [exact E|]. split; [exact T|exact F].
Qed.
Lemma a_bump_remap_address (Q : unit -> lst -> Prop) c n l K s : c = INTEGER_NUMBER ->
  (forall c', Q tt (L c' None None (K ++ [TTok DIEM_ADDRESS]) s)) ->
  awp (bump_remap DIEM_ADDRESS) Q (L c n l K s).
Proof. intros -> H. cbn. split; [right; auto|]. split; [discriminate|]. intros c0 _ _. apply H. Qed.
Lemma kind_out k r : kind_in k r = false -> ~ In k r.
Proof. intros E X. apply kind_in_In in X. congruence. Qed.
Lemma a_err_recover msg r (Q : unit -> lst -> Prop) c n l K s :
  (In c (L_BRACE :: R_BRACE :: r) -> Q tt (L c n None (K ++ [TErr msg]) s)) ->
  (c = EOF -> forall d, Q tt (L c n (Some d) (K ++ [TNode ERROR [TErr msg]]) s)) ->
  (~ In c (EOF :: L_BRACE :: R_BRACE :: r) -> forall c' d, ahead n c' -> Q tt (L c' None (Some d) (K ++ [instead msg c]) s)) ->
  awp (err_recover msg r) Q (L c n l K s).
Proof.
  intros H1 H2 H3. unfold err_recover. apply awp_bind, a_current. cbn [l_cur].
  destruct (kind_eqb c L_BRACE || kind_eqb c R_BRACE) eqn:E.
  { apply a_error. apply H1. apply orb_true_iff in E as [E|E]; apply kind_eqb_eq in E; cbn; auto. }
  apply orb_false_iff in E as [E1 E2]. apply kind_eqb_neq in E1, E2.
  apply awp_bind, a_at_ts. cbn [l_cur]. destruct (kind_in c r) eqn:E.
  { apply a_error. apply H1. apply kind_in_In in E. cbn; auto. }
  apply kind_out in E.
  apply awp_bind, a_start. intros m. apply awp_bind, a_error. apply awp_bind, a_bump_any.
  - intros X. apply awp_bind, a_complete; [discriminate|intro; discriminate|]. intros d. cbn [awp opt_tree app]. auto.
  - intros X c' F. apply awp_bind, a_complete; [discriminate|intro; discriminate|]. intros d. cbn [awp opt_tree app].
    apply H3; [cbn; intuition congruence|exact F].
Qed.
(** the part is missing, whatever there is *)
Lemma a_missing msg r (Q : unit -> lst -> Prop) c n l K s :
  (forall c' n' l' x, missing msg r x -> Q tt (L c' n' l' (K ++ [x]) s)) -> awp (err_recover msg r) Q (L c n l K s).
Proof. intros H. apply a_err_recover; intros; apply H; constructor; assumption. Qed.
Lemma a_skip_until ts (Q : unit -> lst -> Prop) c n l K s :
  (forall c' n' l' js, all_but ts js -> In c' (EOF :: ts) -> match js with [] => c' = c | k :: _ => k = c end ->
     Q tt (L c' n' l' (K ++ map TTok js) s)) ->
  awp (call (F_skip_until (ts ++ [EOF]))) Q (L c n l K s).
Proof.
  intros H. unfold call. cbn [awp apre]. split; [apply in_or_app; right; left; reflexivity|].
  intros [] [c' n' l' K' s'] (E1 & new & E2 & js & -> & F & I & M). cbn [l_stack l_kids l_cur] in *. subst. apply H; [| |exact M].
  - unfold all_but. rewrite Forall_forall in *. intros k Ik. specialize (F k Ik). rewrite in_app_iff in F. cbn in F. intuition.
  - apply in_app_or in I as [I|[I|[]]]; [right; exact I|left; exact I].
Qed.
Lemma a_error_skip msg ts (Q : cmark -> lst -> Prop) c n l K s :
  (forall d c' n' js, all_but ts js -> In c' (EOF :: ts) -> match js with [] => c' = c | k :: _ => k = c end ->
     Q d (L c' n' (Some d) (K ++ [skipped msg js]) s)) ->
  awp (error_and_skip_until msg ts) Q (L c n l K s).
Proof.
  intros H. unfold error_and_skip_until. apply awp_bind, a_start. intros m. apply awp_bind, a_error.
  apply awp_bind, a_skip_until. intros c' n' l' js A I M. apply a_complete; [discriminate|intro; discriminate|].
  intros d. cbn [opt_tree app]. apply H; assumption.
Qed.
Lemma a_skip_until_body ts (Q : unit -> lst -> Prop) c n l K s : In EOF ts ->
  (forall b st', apost (F_skip_until ts) (L c n l K s) b st' -> Q b st') ->
  awp (skip_until_body ts) Q (L c n l K s).
Proof.
  intros He H. unfold skip_until_body. apply awp_bind, a_current. cbn [l_cur]. rewrite ts_has_spec.
  destruct (kind_in c ts) eqn:E.
  - cbn [awp]. apply H. split; [reflexivity|]. exists []. split; [cbn; rewrite app_nil_r; reflexivity|]. exists [].
    split; [reflexivity|]. split; [constructor|]. split; [apply kind_in_In; exact E|reflexivity].
  - apply kind_out in E. apply awp_bind, a_bump_any; [intros ->; contradiction|]. intros X c' F. unfold call. cbn [awp apre].
    split; [exact He|]. intros [] [c2 n2 l2 K2 s2] (E1 & new & E2 & js & -> & Fj & I & M). cbn [l_stack l_kids l_cur] in *. subst.
    apply H. split; [reflexivity|]. exists (map TTok (c :: js)). split; [cbn [l_kids map]; rewrite <- app_assoc; reflexivity|].
    exists (c :: js). split; [reflexivity|]. split; [constructor; assumption|]. split; [exact I|reflexivity].
Qed.

(** ** Automation *)
Ltac keqs := repeat match goal with
  | H : kind_eqb ?a ?b = true |- _ => apply kind_eqb_eq in H; try subst a; try discriminate
  | H : kind_eqb ?a ?b = false |- _ => apply kind_eqb_neq in H
  | H : negb _ = true |- _ => apply negb_true_iff in H
  | H : negb _ = false |- _ => apply negb_false_iff in H
  end.
Ltac rules := fail.
Ltac step1 :=
  lazymatch goal with
  | |- kind_eqb _ _ = true -> _ => intro; keqs
  | |- forall _, _ => intro
  | |- awp (pbind _ _) _ _ => apply awp_bind
  | |- awp (Ret _) _ _ => cbn [awp]
  | |- awp (if ?b then _ else _) _ _ =>
      first [ (let x := eval vm_compute in b in match x with true => idtac | false => idtac end; change b with x; cbv iota)
            | destruct b eqn:?; keqs ]
  | |- awp (let _ := _ in _) _ _ => cbv zeta
  | |- awp (andp _ _) _ _ => unfold andp
  | |- awp (orp _ _) _ _ => unfold orp
  | |- awp (notp _) _ _ => unfold notp
  | |- awp (assert_p _) _ _ => apply a_assert_p
  | |- awp (at_ _) _ _ => apply a_at; cbn [l_cur]
  | |- awp (at_ts _) _ _ => apply a_at_ts; cbn [l_cur]
  | |- awp (nth_at 1 _) _ _ => apply a_nth_at
  | |- awp (nth_ 1) _ _ => apply a_nth1
  | |- awp (nth_ 2) _ _ => apply a_nth2
  | |- awp current _ _ => apply a_current; cbn [l_cur]
  | |- awp current_text _ _ => apply a_current_text
  | |- awp start _ _ => apply a_start
  | |- awp (error _) _ _ => apply a_error
  | |- awp (abandon _) _ _ => apply a_abandon
  | |- awp (eat _) _ _ => apply a_eat; [discriminate| |]
  | |- awp (bump _) _ _ => apply a_bump; [discriminate|]
  | |- awp (expect _) _ _ => apply a_expect; [discriminate| |]
  | |- awp bump_any _ _ => apply a_bump_any
  | |- awp (complete _ _) _ _ => apply a_complete; [discriminate|intro; discriminate|]
  | |- _ => rules
  end.

(** A function that adds a forest of a given form. *)
Definition yields {A} (p : prog A) (c : kind) (P : A -> kind -> forest -> Prop) : Prop :=
  forall n l K s (Q : A -> lst -> Prop),
    (forall a c' n' l' new, P a c' new -> Q a (L c' n' l' (K ++ new) s)) -> awp p Q (L c n l K s).
Definition gives (x : sort) {A} (_ : A) (_ : kind) (new : forest) : Prop := made x new.
Definition one (x : sort) {A} (_ : A) (_ : kind) (new : forest) : Prop := exists t, new = [t] /\ made x [t].

Ltac fin H :=
  cbn [opt_tree app]; rewrite <- ?app_assoc; cbn [app];
  first [ apply H
        | match goal with |- ?Q ?a (L ?c ?n ?l ?K ?s) =>
            rewrite <- (app_nil_r K); apply H end ].
Ltac go H := repeat step1; try (subst; try discriminate); try (fin H).
Ltac tm := first [left; reflexivity|right; reflexivity].

Lemma a_name_r r c : yields (name_r r) c (one (RName r)).
Proof.
  intros n l K s Q H. unfold name_r. repeat step1; subst.
  - fin H. exists name_node. split; [reflexivity|constructor].
  - apply a_missing. intros. apply H. eexists. split; [reflexivity|]. apply k_name_missing. assumption.
Qed.
Lemma a_name c : yields name c (one (RName [])).
Proof. apply a_name_r. Qed.

Definition until (k c : kind) {A} (P : A -> kind -> forest -> Prop) (a : A) (c' : kind) (new : forest) : Prop :=
  P a c' new /\ (c = k -> new = [] /\ c' = k).
Lemma a_grow {f P} c : (forall st, apre f st) ->
  (forall n l K s b st', apost f (L c n l K s) b st' -> lgrows (P b) (L c n l K s) st') -> yields (call f) c P.
Proof.
  intros P1 P2 n l K s Q H. unfold call. cbn [awp]. split; [apply P1|].
  intros b st Hb. apply P2 in Hb. destruct st as [c' n' l' K' s']. destruct Hb as (E1 & new & E2 & HP).
  cbn [l_stack l_kids l_cur] in *. subst. apply H. exact HP.
Qed.
Ltac grow f := apply (@a_grow f); [intros ?; exact I|intros ? ? ? ? ? ? Hpost; exact Hpost].
Lemma a_root c : yields (call F_root) c (fun _ _ new => made RFile (filter not_blank new) /\
  (In c [EOF; MODULE_KW; SCRIPT_KW; ADDRESS_KW] \/ is_trivia c = true)). Proof. grow F_root. Qed.
Lemma a_address_items c : yields (call F_address_items) c (gives RModules). Proof. grow F_address_items. Qed.
Lemma a_items c : yields (call F_items) c (fun _ _ new => made RItems new /\ In c [R_BRACE; EOF; FUN_KW; STRUCT_KW; SEMICOLON]).
Proof. grow F_items. Qed.
Lemma a_record_fields c : yields (call F_record_fields) c (until R_BRACE c (fun _ _ new => made RFields new /\ c <> L_BRACE)).
Proof. grow F_record_fields. Qed.
Lemma a_generic_params c : yields (call F_generic_params) c (until GT c (gives RTypeParams)).
Proof. grow F_generic_params. Qed.
Lemma a_bounds_call c : yields (call F_bounds) c (gives RBounds). Proof. grow F_bounds. Qed.
Lemma a_params c : yields (call F_params) c (until R_PAREN c (gives RParams)). Proof. grow F_params. Qed.
Lemma a_type c : yields type_ c (one RType). Proof. grow F_type. Qed.
Lemma a_block_contents c : yields block_contents c (fun _ _ new => made RStmts new /\ c <> R_PAREN /\ (c = EOF -> new = [])).
Proof. grow F_block_contents. Qed.
Lemma a_expr_block_contents c : yields expr_block_contents c (fun _ _ new => made RJunkStmts new /\ c <> R_PAREN /\ (c = EOF -> new = [])).
Proof. grow F_expr_block_contents. Qed.
Lemma a_record_expr_fields c : yields (call F_record_expr_fields) c (until R_BRACE c (gives RFieldInits)).
Proof. grow F_record_expr_fields. Qed.
Lemma a_pattern c : yields pattern c (one RPattern). Proof. grow F_pattern. Qed.
Lemma a_record_pat_fields c : yields (call F_record_pat_fields) c (until R_BRACE c (gives RFieldPats)).
Proof. grow F_record_pat_fields. Qed.
Lemma a_args c : yields (call F_args) c (until R_PAREN c (gives RArgs)). Proof. grow F_args. Qed.
Lemma a_paren c : yields (call F_paren) c (fun b _ new => b = true /\ made RParens new /\ c <> SEMICOLON /\ (c = EOF \/ c = R_PAREN -> new = [])).
Proof. grow F_paren. Qed.
Lemma a_tuple_pat_call hc hp c : (hc = true -> hp = true) ->
  yields (call (F_tuple_pat hc hp false)) c (fun flags c' new =>
    until R_PAREN c (gives RPatterns) flags c' new /\
    flags = (hc || negb (Nat.leb (length new) 1), hp || negb (Nat.eqb (length new) 0), false)).
Proof.
  intros H0. apply (@a_grow (F_tuple_pat hc hp false)); [intros; split; auto|].
  intros n l K s b st' Hp. exact Hp.
Qed.
Lemma a_path_for_qualifier q (Q : unit -> lst -> Prop) c n K T s : made RPath [T] ->
  (forall c' n' l' T', made RPath [T'] -> (c <> COLON_COLON -> T' = T /\ c' = c) -> Q tt (L c' n' l' (K ++ [T']) s)) ->
  awp (call (F_path_for_qualifier q)) Q (L c n (Some q) (K ++ [T]) s).
Proof.
  intros HT H. unfold call. cbn [awp apre]. split; [exists K, T; split; [split; reflexivity|exact HT]|].
  intros [] [c' n' l' K' s'] (H1 & f0 & t & t' & H2 & H3 & H4 & H6). cbn [l_kids l_stack l_cur] in *. subst.
  apply app_inj_tail in H2 as [<- <-]. apply H; auto.
Qed.
Lemma a_postfix q (Q : cmark -> lst -> Prop) c n K T s : operand T c ->
  (forall d c' n' T', made RUnary [T'] -> ends_at T' c' -> (In c stops -> c' = c) -> Q d (L c' n' (Some d) (K ++ [T']) s)) ->
  awp (call (F_postfix q)) Q (L c n (Some q) (K ++ [T]) s).
Proof.
  intros HT H. unfold call. cbn [awp apre]. split; [exists K, T; split; [split; reflexivity|exact HT]|].
  intros d [c' n' l' K' s'] (H1 & f0 & t & t' & H2 & [H3 H4] & H5 & H6 & H7). cbn [l_kids l_stack l_cur l_last] in *. subst.
  apply app_inj_tail in H2 as [<- <-]. apply H; auto.
Qed.
Lemma a_expr_bp bp (Q : option cmark -> lst -> Prop) c n l K s : 1 <= bp ->
  (forall d c' n' T', made (RExpr bp) [T'] -> ends_at T' c' -> (forall p, prec c' = Some p -> p < bp) -> (In c stops -> c' = c) ->
     Q (Some d) (L c' n' (Some d) (K ++ [T']) s)) ->
  awp (call (F_expr_bp bp)) Q (L c n l K s).
Proof.
  intros HB H. unfold call. cbn [awp apre]. split; [exact HB|].
  intros o [c' n' l' K' s'] (H1 & d & t' & -> & [H2 H3] & H4 & H5 & H6 & H7). cbn [l_kids l_stack l_cur l_last] in *. subst.
  apply H; auto.
Qed.
Lemma a_expr (Q : option cmark -> lst -> Prop) c n l K s :
  (forall d c' n' T', made (RExpr 1) [T'] -> ends_at T' c' -> (In c stops -> c' = c) -> Q (Some d) (L c' n' (Some d) (K ++ [T']) s)) ->
  awp expr Q (L c n l K s).
Proof. intros H. apply a_expr_bp; [lia|]. auto. Qed.
Lemma a_loop bp q (Q : option cmark -> lst -> Prop) c n K T s : 1 <= bp ->
  made (RExpr bp) [T] -> (forall p, prec c = Some p -> made (RExpr p) [T]) -> ends_at T c ->
  (forall d c' n' T', made (RExpr bp) [T'] -> ends_at T' c' -> (forall p, prec c' = Some p -> p < bp) -> (In c stops -> c' = c) ->
     Q (Some d) (L c' n' (Some d) (K ++ [T']) s)) ->
  awp (call (F_expr_bp_loop bp q)) Q (L c n (Some q) (K ++ [T]) s).
Proof.
  intros HB HT HP HE H. unfold call. cbn [awp apre]. split; [split; [exact HB|exists K, T; split; [split; reflexivity|auto]]|].
  intros o [c' n' l' K' s'] (H1 & f0 & t & d & t' & H2 & -> & [H3 H4] & H5 & H6 & H7 & H8).
  cbn [l_kids l_stack l_cur l_last] in *. subst.
  apply app_inj_tail in H2 as [<- <-]. apply H; auto.
Qed.

(** use the contract [H] of a function, with continuation *)
Ltac use H := apply H; intros ? ? ? ? ? ?; unfold gives in *; subst.
Ltac use1 H := apply H; intros ? ? ? ? ? (? & -> & ?).
Ltac rules0 :=
  lazymatch goal with
  | |- awp name _ _ => use1 a_name
  | |- awp (name_r _) _ _ => use1 a_name_r
  | |- awp type_ _ _ => use1 a_type
  | |- awp pattern _ _ => use1 a_pattern
  | |- awp block_contents _ _ => use a_block_contents
  | |- awp expr_block_contents _ _ => use a_expr_block_contents
  | |- awp (call F_address_items) _ _ => use a_address_items
  | |- awp (call F_items) _ _ => use a_items
  | |- awp (call F_record_fields) _ _ => use a_record_fields
  | |- awp (call F_generic_params) _ _ => use a_generic_params
  | |- awp (call F_bounds) _ _ => use a_bounds_call
  | |- awp (call F_params) _ _ => use a_params
  | |- awp (call F_args) _ _ => use a_args
  | |- awp (call F_record_expr_fields) _ _ => use a_record_expr_fields
  | |- awp (call F_record_pat_fields) _ _ => use a_record_pat_fields
  | |- awp expr _ _ => apply a_expr; intros ? ? ? ? ? ? ?
  end.
Ltac rules ::= rules0.
(** after [go] *)
Ltac listq :=
  unfold until, gives in *;
  repeat match goal with H : _ /\ _ |- _ => destruct H end;
  repeat match goal with H : ?a = ?a -> _ |- _ => specialize (H eq_refl) end;
  repeat match goal with H : _ /\ _ |- _ => destruct H end; subst.

(** ** Blocks, paths, types *)
Lemma a_block_expr_unchecked (Q : cmark -> lst -> Prop) c n l K s :
  (forall d c' n' T, c = L_BRACE -> made RBlock [T] -> Q d (L c' n' (Some d) (K ++ [T]) s)) ->
  awp block_expr_unchecked Q (L c n l K s).
Proof.
  intros H. unfold block_expr_unchecked. repeat step1; subst.
  all: fin H; [reflexivity|]; listq; apply k_block; [assumption|tm].
Qed.
Lemma a_block_expr c : yields block_expr c (fun _ _ new => exists b, new = [b] /\ (b = TErr m_block \/ made RBlock [b])).
Proof.
  intros n l K s Q H. unfold block_expr. do 3 step1; step1.
  - fin H. eexists. split; [reflexivity|left; reflexivity].
  - apply a_block_expr_unchecked. intros. cbn [awp]. fin H. eauto.
Qed.
Lemma a_error_block msg c : yields (error_block msg) c (fun _ _ new => exists b, new = [b] /\ made (RJunkBlock msg) [b]).
Proof.
  intros n l K s Q H. unfold error_block. repeat step1; subst.
  all: fin H; eexists; split; [reflexivity|]; listq.
  - apply (k_junk_block msg _ [TTok R_BRACE]); auto.
  - match goal with J : made RJunkStmts ?js |- _ => rewrite <- (app_nil_r js); apply (k_junk_block msg js []); auto end.
Qed.

(** the path at a name; with a brace just ahead it is the name alone *)
Lemma a_path (Q : unit -> lst -> Prop) n l K s :
  (forall c' n' l' T, made RPath [T] -> (n = Some L_BRACE -> T = TNode PATH [segment_node] /\ c' = L_BRACE) ->
     Q tt (L c' n' l' (K ++ [T]) s)) ->
  awp path Q (L IDENT n l K s).
Proof.
  intros H. unfold path, path_segment, name_ref. repeat step1; try discriminate.
  cbn [opt_tree app]. apply a_path_for_qualifier; [apply k_path_name|].
  intros c2 n2 l2 T' HT HE. apply H; [exact HT|].
  intros ->. match goal with F : ahead _ _ |- _ => destruct F as [_ F]; specialize (F _ eq_refl eq_refl); subst end.
  apply HE. discriminate.
Qed.
Lemma a_path_for_qualifier_body q (Q : unit -> lst -> Prop) c n K T s : made RPath [T] ->
  (forall c' n' l' T', made RPath [T'] -> (c <> COLON_COLON -> T' = T /\ c' = c) -> Q tt (L c' n' l' (K ++ [T']) s)) ->
  awp (path_for_qualifier_body q) Q (L c n (Some q) (K ++ [T]) s).
Proof.
  intros HT H. unfold path_for_qualifier_body, path_segment, name_ref.
  apply awp_bind, a_nth2. intros k2. apply awp_bind, a_at. cbn [l_cur].
  destruct (kind_eqb c COLON_COLON) eqn:E; [|apply kind_eqb_neq in E; cbn [andb awp]; apply H; auto].
  apply kind_eqb_eq in E. subst c. cbn [andb].
  destruct (negb _); [|cbn [awp]; apply H; auto; congruence].
  apply awp_bind, a_precede. intros m. repeat step1.
  - cbn [opt_tree app]. apply a_path_for_qualifier; [apply k_path; exact HT|].
    intros c2 n2 l2 T' HT' HE. apply H; [exact HT'|congruence].
  - apply a_missing. intros c3 n3 l3 x Hx. repeat step1.
    cbn [opt_tree app]. apply a_path_for_qualifier; [apply k_path_missing; assumption|].
    intros c2 n2 l2 T' HT' HE. apply H; [exact HT'|congruence].
Qed.

Ltac rules1 :=
  lazymatch goal with
  | |- awp block_expr _ _ => use1 a_block_expr
  | |- awp (error_block _) _ _ => use1 a_error_block
  | |- awp path _ _ => apply a_path; intros ? ? ? ? ? ?
  | |- _ => rules0
  end.
Ltac rules ::= rules1.
Lemma a_type_body c : yields type_body c (one RType).
Proof.
  intros n l K s Q H. unfold type_body, ref_type, is_path_start, path_type, type_path, is_path_start.
  go H; try (eexists; split; [reflexivity|]); try (constructor; assumption).
  apply a_missing. intros. apply H. eexists. split; [reflexivity|]. apply k_type_missing. assumption.
Qed.
Lemma a_ascription c : yields ascription c (fun _ _ new => exists ty, new = [TTok COLON; ty] /\ made RType [ty]).
Proof. intros n l K s Q H. unfold ascription. go H. eauto. Qed.

(** ** Parameters *)
Ltac rules2 :=
  lazymatch goal with
  | |- awp ascription _ _ => use1 a_ascription
  | |- _ => rules1
  end.
Ltac rules ::= rules2.
(** [x] followed by nothing, or by a comma or a message and more *)
Ltac hold := first [assumption|tm|(constructor; hold)].
Lemma a_param_name (Q : unit -> lst -> Prop) c n l K s : kind_in c PARAM_FIRST = true ->
  (forall c' n' l' x, x = name_node \/ x = instead m_name AMP -> Q tt (L c' n' l' (K ++ [x]) s)) -> awp name Q (L c n l K s).
Proof.
  intros F H. unfold name, name_r. repeat step1; subst.
  - cbn [opt_tree app]. apply H. auto.
  - assert (c = AMP) as -> by (apply kind_in_In in F; cbn in F; intuition congruence).
    apply a_err_recover; [intros X; cbn in X; intuition discriminate|discriminate|]. intros. apply H. auto.
Qed.
Ltac rules_param :=
  lazymatch goal with
  | |- awp name _ _ => apply a_param_name; [assumption|intros ? ? ? ? ?]
  | |- _ => rules2
  end.
Ltac rules ::= rules_param.
Lemma a_params_body c : yields params_body c (until R_PAREN c (gives RParams)).
Proof.
  intros n l K s Q H. unfold params_body, param. repeat step1; subst; try discriminate.
  all: try fin H; listq; try (split; [|intros; first [congruence|split; congruence]]); unfold gives.
  all: hold.
Qed.
Ltac rules ::= rules2.
Lemma a_param_list c : yields param_list c (fun _ _ new => exists ps l c, new = [ps] /\ made RParams l /\ token_or_message R_PAREN c /\
  ps = TNode PARAM_LIST (TTok L_PAREN :: l ++ [c])).
Proof. intros n l K s Q H. unfold param_list. go H; listq; do 3 eexists; (split; [reflexivity|]); (split; [eassumption|]); (split; [|reflexivity]); tm. Qed.
Lemma a_bounds_body c : yields bounds_body c (gives RBounds).
Proof.
  intros n l K s Q H. unfold bounds_body, type_bound, name, name_r. repeat step1; subst; try discriminate.
  all: fin H; unfold gives; constructor; assumption.
Qed.
Lemma a_bounds c : yields bounds c (fun _ _ new => exists bs, new = [TTok COLON; TNode TYPE_BOUND_LIST bs] /\ made RBounds bs).
Proof. intros n l K s Q H. unfold bounds, bounds_without_colon, bounds_without_colon_m. go H. eauto. Qed.
Ltac rules3 :=
  lazymatch goal with
  | |- awp bounds _ _ => use1 a_bounds
  | |- _ => rules2
  end.
Ltac rules ::= rules3.
Lemma a_generic_param (Q : unit -> lst -> Prop) c n l K s : c <> EOF -> c <> GT ->
  (forall c' n' l' x, made RTypeParam [x] -> Q tt (L c' n' l' (K ++ [x]) s)) -> awp generic_param Q (L c n l K s).
Proof.
  intros N1 N2 H. unfold generic_param, type_param, name, name_r. repeat step1; subst; try discriminate.
  1, 2: cbn [opt_tree app]; apply H; constructor; assumption.
  unfold err_and_bump. cbn [app]. rewrite app_nil_r. apply a_err_recover.
  - intros _. apply H. constructor.
  - contradiction.
  - intros X c' d _. apply H. apply k_type_param_wrong. cbn in *. intuition congruence.
Qed.
Ltac rules4 :=
  lazymatch goal with
  | |- awp generic_param _ _ => apply a_generic_param; [assumption|assumption|]; intros ? ? ? ? ?
  | |- _ => rules3
  end.
Ltac rules ::= rules4.
Lemma a_generic_params_body c : yields generic_params_body c (until GT c (gives RTypeParams)).
Proof.
  intros n l K s Q H. unfold generic_params_body. repeat step1; subst; try discriminate.
  all: try fin H; listq; try (split; [|intros; first [congruence|split; congruence]]); unfold gives.
  all: hold.
Qed.
Lemma a_generic_param_list c : yields generic_param_list c (gives RGenerics).
Proof. intros n l K s Q H. unfold generic_param_list. go H; listq; apply k_generics; hold. Qed.
Ltac rules5 :=
  lazymatch goal with
  | |- awp generic_param_list _ _ => use a_generic_param_list
  | |- _ => rules4
  end.
Ltac rules ::= rules5.
Lemma a_opt_generic_param_list c : yields opt_generic_param_list c (gives RGenerics).
Proof. intros n l K s Q H. unfold opt_generic_param_list. go H; [assumption|constructor]. Qed.

(** ** Patterns *)
Lemma a_ident_pat c : yields ident_pat c (fun _ _ new => exists n, made (RName []) [n] /\
  (new = [TNode IDENT_PAT [n]] /\ c <> MUT_KW \/ new = [TNode IDENT_PAT [TTok MUT_KW; n]])).
Proof. intros n l K s Q H. unfold ident_pat. go H; eauto. Qed.
Lemma a_ident_pat_name : yields ident_pat IDENT (fun _ _ new => new = [TNode IDENT_PAT [name_node]]).
Proof. intros n l K s Q H. unfold ident_pat, name, name_r. go H; try reflexivity. Qed.
Ltac rules6 :=
  lazymatch goal with
  | |- awp ident_pat _ (L IDENT _ _ _ _) => apply a_ident_pat_name; intros ? ? ? ? ? ->
  | |- awp ident_pat _ _ => apply a_ident_pat; intros ? ? ? ? ? (? & ? & [[-> ?] | ->])
  | |- _ => rules5
  end.
Ltac rules ::= rules6.
Lemma a_record_pat_field c : yields record_pat_field c (one RFieldPat).
Proof.
  intros n l K s Q H. unfold record_pat_field, name_ref. repeat step1; subst; try discriminate.
  all: try (fin H; eexists; split; [reflexivity|]; constructor; first [assumption|constructor]).
Qed.
Ltac rules7 :=
  lazymatch goal with
  | |- awp record_pat_field _ _ => use1 a_record_pat_field
  | |- _ => rules6
  end.
Ltac rules ::= rules7.
Lemma a_record_pat_fields_body c : yields record_pat_fields_body c (until R_BRACE c (gives RFieldPats)).
Proof.
  intros n l K s Q H. unfold record_pat_fields_body. repeat step1; subst; try discriminate.
  all: try fin H; listq; try (split; [|intros; first [congruence|split; congruence]]); unfold gives.
  all: try hold.
  all: try (apply k_field_pats; [apply k_field_pat_junk; assumption|tm|assumption]).
  all: try (apply k_field_pats_last; apply k_field_pat_junk; assumption).
Qed.
Lemma a_record_pat_field_list c : yields record_pat_field_list c (fun _ _ new => exists fs x,
  new = [TNode RECORD_PAT_FIELD_LIST (TTok L_BRACE :: fs ++ [x])] /\ made RFieldPats fs /\ token_or_message R_BRACE x).
Proof. intros n l K s Q H. unfold record_pat_field_list. go H; listq; do 2 eexists; (split; [reflexivity|]); (split; [assumption|]); tm. Qed.
Ltac rules8 :=
  lazymatch goal with
  | |- awp record_pat_field_list _ _ => apply a_record_pat_field_list; intros ? ? ? ? ? (? & ? & -> & ? & ?)
  | |- _ => rules7
  end.
Ltac rules ::= rules8.
Lemma a_path_pat (Q : unit -> lst -> Prop) l K s :
  (forall c' n' l' p, made RPattern [p] -> Q tt (L c' n' l' (K ++ [p]) s)) ->
  awp path_pat Q (L IDENT (Some L_BRACE) l K s).
Proof.
  intros H. unfold path_pat, is_path_start, expr_path. do 11 step1.
  match goal with E : Some L_BRACE = Some L_BRACE -> _ |- _ => destruct (E eq_refl) as [-> ->] end.
  repeat step1. cbn [opt_tree app]. apply H. apply k_pat_record; assumption.
Qed.
Lemma a_tuple_pat_body hc hp c : (hc = true -> hp = true) ->
  yields (tuple_pat_body hc hp false) c (fun flags c' new =>
    until R_PAREN c (gives RPatterns) flags c' new /\
    flags = (hc || negb (Nat.leb (length new) 1), hp || negb (Nat.eqb (length new) 0), false)).
Proof.
  intros Hc n l K s Q H. unfold tuple_pat_body. repeat step1; subst; try discriminate.
  all: try match goal with F : kind_in ?c PATTERN_FIRST = true |- _ =>
    assert (E : kind_eqb c DOTDOT = false) by (destruct (kind_eqb c DOTDOT) eqn:E; [apply kind_eqb_eq in E; subst c; discriminate|reflexivity]);
    rewrite E; cbn [orb] end.
  - fin H. cbn [length]. rewrite !orb_false_r. split; [|reflexivity]. split; [constructor|auto].
  - fin H. cbn [length Nat.leb Nat.eqb negb]. rewrite orb_false_r, orb_true_r. split; [|reflexivity]. split; [constructor|congruence].
  - apply a_tuple_pat_call; [reflexivity|]. intros fl c2 n2 l2 new [[U _] ->]. fin H.
    split; [split; [unfold gives in *; apply k_patterns; [assumption|tm|assumption]|congruence]|].
    cbn [length Nat.leb Nat.eqb negb orb]. rewrite !orb_true_r. reflexivity.
  - apply a_tuple_pat_call; [reflexivity|]. intros fl c2 n2 l2 new [[U _] ->]. fin H.
    split; [split; [unfold gives in *; apply k_patterns; [assumption|tm|assumption]|congruence]|].
    cbn [length Nat.leb Nat.eqb negb orb]. rewrite !orb_true_r. reflexivity.
  - apply a_tuple_pat_call; [reflexivity|]. intros fl c2 n2 l2 new [[U1 U2] ->].
    destruct (U2 eq_refl) as [-> ->]. fin H. split; [split; [apply k_patterns_last; assumption|congruence]|].
    cbn [length Nat.leb Nat.eqb negb orb]. rewrite !orb_false_r, !orb_true_r. reflexivity.
  - fin H. cbn [length]. rewrite !orb_false_r. split; [|reflexivity]. split; [constructor|discriminate].
Qed.
Lemma a_tuple_pat c : yields tuple_pat c (one RPattern).
Proof.
  intros n l K s Q H. unfold tuple_pat. repeat step1. subst.
  apply a_tuple_pat_call; [discriminate|]. intros fl c2 n2 l2 new [[U1 _] ->]. cbn [orb]. unfold gives in U1.
  repeat step1; subst.
  all: apply a_complete; [destruct (_ && _); discriminate|destruct (_ && _); intro; discriminate|]; intros r; cbn [awp].
  all: fin H; eexists; (split; [reflexivity|]).
  all: destruct new as [|p [|q new]]; cbn [length Nat.leb Nat.eqb negb andb app].
  all: first [apply (k_pat_tuple []); [constructor|discriminate|tm] | apply k_pat_paren; [exact U1|tm]
             | apply (k_pat_tuple (p :: q :: new)); [exact U1|discriminate|tm]].
Qed.
Ltac rules9 :=
  lazymatch goal with
  | |- awp tuple_pat _ _ => use1 a_tuple_pat
  | |- awp path_pat _ _ => apply a_path_pat; intros ? ? ? ? ?
  | |- _ => rules8
  end.
Ltac rules ::= rules9.
Lemma a_pattern_body c : yields pattern_body c (one RPattern).
Proof.
  intros n l K s Q H. unfold pattern_body, rest_pat, wildcard_pat. go H.
  all: try (eexists; split; [reflexivity|]; first [assumption|constructor; assumption]).
  all: try congruence.
  all: apply a_missing; intros; apply H; eexists; (split; [reflexivity|]); apply k_pat_missing; assumption.
Qed.

(** ** Atoms *)
Lemma a_bump_address (Q : bool -> lst -> Prop) c n l K s :
  (forall c' n' l' a, In a [TTok DIEM_ADDRESS; TTok IDENT] -> Q true (L c' n' l' (K ++ [a]) s)) ->
  (c <> IDENT -> Q false (L c n l K s)) -> awp bump_address Q (L c n l K s).
Proof.
  intros H1 H2. unfold bump_address. repeat step1; subst; auto; try discriminate.
  - apply H1. cbn; auto.
  - apply a_bump_remap_address; [reflexivity|]. intros c'. cbn [awp]. apply H1. cbn; auto.
Qed.
Lemma skip_head c ts js c' : c <> IDENT -> match js with [] => c' = c | k :: _ => k = c end ->
  all_but ts js -> hd_error js <> Some IDENT.
Proof. intros N M _. destruct js as [|k js]; cbn; [discriminate|]. congruence. Qed.
Lemma a_literal (Q : option cmark -> lst -> Prop) c n l K s :
  (kind_in c LITERAL_FIRST = false -> Q None (L c n l K s)) ->
  (forall d c' n' f, kind_in c LITERAL_FIRST = true -> made RAtom [TNode LITERAL f] -> Q (Some d) (L c' n' (Some d) (K ++ [TNode LITERAL f]) s)) ->
  awp literal Q (L c n l K s).
Proof.
  intros H1 H2. unfold literal, address_lit. repeat step1; subst; auto.
  - apply a_bump_address; repeat step1.
    + cbn [opt_tree app]. apply H2; [reflexivity|]. apply k_address_lit. assumption.
    + apply a_error_skip. intros d c2 n2 js A I M. repeat step1. cbn [opt_tree app]. apply H2; [reflexivity|].
      apply k_address_lit_skip; [exact A|]. eapply skip_head; eassumption.
  - discriminate.
  - cbn [opt_tree app]. apply H2; [assumption|]. apply k_literal.
    match goal with F : kind_in _ _ = true |- _ => rewrite kind_in_In in F; cbn in F |- * end. intuition congruence.
Qed.
Lemma a_name_ref_init (Q : unit -> lst -> Prop) c l K s : c = IDENT \/ c = INTEGER_NUMBER ->
  (forall l' x, x = name_ref_node \/ x = instead m_ident INTEGER_NUMBER -> Q tt (L COLON None l' (K ++ [x]) s)) ->
  awp name_ref Q (L c (Some COLON) l K s).
Proof.
  intros C H. unfold name_ref. repeat step1; subst.
  - match goal with F : ahead _ _ |- _ => destruct F as [_ F]; specialize (F _ eq_refl eq_refl); subst end.
    cbn [opt_tree app]. apply H. auto.
  - destruct C as [-> | ->]; [congruence|]. apply a_err_recover; [intros X; cbn in X; intuition discriminate|discriminate|].
    intros _ c' d [_ F]. specialize (F _ eq_refl eq_refl). subst. apply H. auto.
Qed.
Ltac rules_init :=
  lazymatch goal with
  | H : (kind_eqb ?c IDENT || kind_eqb ?c INTEGER_NUMBER)%bool = true |- awp name_ref _ (L ?c (Some COLON) _ _ _) =>
      apply a_name_ref_init; [apply orb_true_iff in H as [H|H]; apply kind_eqb_eq in H; auto|]; intros ? ? ?
  | |- awp (err_recover _ _) _ _ =>
      apply a_err_recover; [intros X; exfalso; cbn in X; intuition congruence|intros; contradiction|intros X ? ? ?]
  | |- _ => rules9
  end.
Ltac rules ::= rules_init.
Lemma init_wrong c : (kind_eqb c IDENT || kind_eqb c INTEGER_NUMBER)%bool = false -> ~ In c [EOF; L_BRACE; R_BRACE] ->
  made RFieldInit [instead m_ident c].
Proof.
  intros E N. apply orb_false_iff in E as [E1 E2]. apply kind_eqb_neq in E1, E2. apply k_field_init_wrong.
  cbn in *. intuition congruence.
Qed.
Lemma a_record_expr_fields_body c : yields record_expr_fields_body c (until R_BRACE c (gives RFieldInits)).
Proof.
  intros n l K s Q H. unfold record_expr_fields_body, err_and_bump. repeat step1; subst; try discriminate; try congruence.
  all: try fin H; listq; try (split; [|intros; first [congruence|split; congruence]]); unfold gives.
  all: try match goal with |- made RFieldInits (instead _ _ :: _ :: _) => apply k_field_inits; [apply init_wrong; assumption|tm|assumption]
     | |- made RFieldInits [instead _ _] => apply k_field_inits_last, init_wrong; assumption end.
  all: try hold.
  all: try (apply k_field_inits; [apply k_field_init_junk; assumption|tm|assumption]).
  all: try (apply k_field_inits_last, k_field_init_junk; assumption).
Qed.
Ltac rules ::= rules9.
Lemma a_record_expr_field_list c : yields record_expr_field_list c (fun _ _ new => exists fs x,
  new = [TNode RECORD_EXPR_FIELD_LIST (TTok L_BRACE :: fs ++ [x])] /\ made RFieldInits fs /\ token_or_message R_BRACE x).
Proof. intros n l K s Q H. unfold record_expr_field_list. go H; listq; do 2 eexists; (split; [reflexivity|]); (split; [assumption|]); tm. Qed.
Ltac rules10 :=
  lazymatch goal with
  | |- awp record_expr_field_list _ _ => apply a_record_expr_field_list; intros ? ? ? ? ? (? & ? & -> & ? & ?)
  | |- _ => rules9
  end.
Ltac rules ::= rules10.
(** a function that makes one node *)
Definition makes (p : prog cmark) (c : kind) (P : tree -> Prop) : Prop :=
  forall n l K s (Q : cmark -> lst -> Prop), (forall d c' n' T, P T -> Q d (L c' n' (Some d) (K ++ [T]) s)) -> awp p Q (L c n l K s).
Lemma a_path_expr c : makes path_expr c (fun T => made RAtom [T]).
Proof.
  intros n l K s Q H. unfold path_expr, is_path_start, expr_path. repeat step1.
  - fin H. apply k_record; assumption.
  - fin H. apply k_path_expr; assumption.
Qed.
Lemma a_paren_body c : yields paren_body c (fun b _ new => b = true /\ made RParens new /\ c <> SEMICOLON /\ (c = EOF \/ c = R_PAREN -> new = [])).
Proof.
  intros n l K s Q H. unfold paren_body. repeat step1; subst.
  - fin H. split; [reflexivity|]. split; [constructor|]. split; [discriminate|reflexivity].
  - apply a_paren. intros b c2 n2 l2 new (-> & E & E2 & E3). rewrite <- app_assoc. apply H. split; [reflexivity|].
    assert (Nc : c <> SEMICOLON).
    { intros ->. apply E2. match goal with X : In _ stops -> _ |- _ => apply X end. cbn; auto. }
    split; [|split; [exact Nc|intros [X|X]; contradiction]]. apply k_parens; [assumption|assumption|].
    intros js ->. apply E3. match goal with X : ends_at _ _ |- _ => specialize (X _ eq_refl); cbn in X end. intuition congruence.
  - fin H. split; [reflexivity|]. split; [constructor|]. split; [discriminate|reflexivity].
Qed.
Lemma a_paren_expr c : makes paren_expr c (fun T => made RAtom [T]).
Proof.
  intros n l K s Q H. unfold paren_expr. repeat step1; subst; try congruence. apply a_paren. intros b c2 n2 l2 new (-> & E & _).
  repeat step1; subst; fin H; apply k_paren; [assumption|tm|assumption|tm].
Qed.
Lemma atom_not_skipped T : made RAtom [T] -> forall js, T <> skipped m_expr js.
Proof.
  intros H js E. unfold skipped in E. inversion H; subst; try discriminate.
  match goal with B : made RBlock _ |- _ => inversion B; subst; discriminate end.
Qed.
Lemma not_stops c : In c stops -> kind_in c LITERAL_FIRST = false /\ c <> IDENT /\ c <> L_PAREN /\ c <> L_BRACE /\
  (kind_eqb c STAR || kind_eqb c BANG || kind_eqb c MINUS)%bool = false.
Proof. intros H. cbn in H. destruct H as [<-|[<-|[<-|[]]]]; repeat split; discriminate || reflexivity. Qed.
Lemma a_atom_expr (Q : option cmark -> lst -> Prop) c n l K s : ~ In c [STAR; BANG; MINUS] ->
  (forall d c' n' T, operand T c' -> (In c stops -> c' = c) -> Q (Some d) (L c' n' (Some d) (K ++ [T]) s)) ->
  awp atom_expr Q (L c n l K s).
Proof.
  intros NP H. unfold atom_expr. apply awp_bind, a_literal.
  - intros NL. step1. step1. step1; [|step1; [|step1]]; apply awp_bind.
    + apply a_path_expr. intros. cbn [awp]. apply H; [left; split; [apply k_postfix_atom; assumption|apply atom_not_skipped; assumption]|].
      intros S. apply not_stops in S. intuition congruence.
    + apply a_paren_expr. intros. cbn [awp]. apply H; [left; split; [apply k_postfix_atom; assumption|apply atom_not_skipped; assumption]|].
      intros S. apply not_stops in S. intuition congruence.
    + apply a_block_expr_unchecked. intros d c' n' T _ B. cbn [awp]. apply k_block_expr in B.
      apply H; [left; split; [apply k_postfix_atom; assumption|apply atom_not_skipped; assumption]|].
      intros S. apply not_stops in S. intuition congruence.
    + apply a_error_skip. intros d c' n' js A I M. cbn [awp]. apply H.
      * right. split; [|cbn in *; intuition]. apply k_unary_skip; [exact A|]. intros k E. destruct js as [|k0 js]; [discriminate|].
        injection E as ->. subst k. apply kind_out in NL. cbn in *. intuition congruence.
      * intros S. destruct js as [|k js]; [exact M|]. subst k. exfalso. inversion A as [|? ? [A1 A2] _]; subst. cbn in *. intuition congruence.
  - intros d c' n' f F HA. cbn [awp]. apply H; [left; split; [apply k_postfix_atom; assumption|discriminate]|].
    intros S. apply not_stops in S. intuition congruence.
Qed.

(** ** Expressions *)
Lemma a_args_body c : yields args_body c (until R_PAREN c (gives RArgs)).
Proof.
  intros n l K s Q H. unfold args_body. repeat step1; subst; try discriminate.
  all: try fin H; listq; try (split; [|intros; first [congruence|split; congruence]]); unfold gives.
  all: hold.
Qed.
Lemma a_call_expr q (Q : cmark -> lst -> Prop) c n K T s : made RPostfix [T] ->
  (forall d c' n' k f, made RPostfix [TNode k f] -> k <> ERROR -> Q d (L c' n' (Some d) (K ++ [TNode k f]) s)) ->
  awp (call_expr q) Q (L c n (Some q) (K ++ [T]) s).
Proof.
  intros HT H. unfold call_expr, arg_list. do 5 step1. subst. apply a_precede. repeat step1; subst; listq.
  - cbn [opt_tree app]. apply H; [|discriminate]. apply (k_call _ _ [TTok R_PAREN]); auto.
  - cbn [opt_tree app]. apply H; [|discriminate].
    match goal with A : made RArgs ?l |- _ => rewrite <- (app_nil_r l); apply (k_call _ _ []); auto end.
Qed.
Lemma a_field_expr q (Q : cmark -> lst -> Prop) c n K T s : made RPostfix [T] ->
  (forall d c' n' k f, made RPostfix [TNode k f] -> k <> ERROR -> Q d (L c' n' (Some d) (K ++ [TNode k f]) s)) ->
  awp (field_expr q) Q (L c n (Some q) (K ++ [T]) s).
Proof.
  intros HT H. unfold field_expr, name_ref. do 5 step1. subst. apply a_precede. repeat step1; subst; try congruence.
  all: cbn [opt_tree app]; apply H; [|discriminate]; apply k_dot; [exact HT|tm].
Qed.
Lemma a_postfix_body q (Q : cmark -> lst -> Prop) c n K T s : operand T c ->
  (forall d c' n' T', made RUnary [T'] -> ends_at T' c' -> (In c stops -> c' = c) -> Q d (L c' n' (Some d) (K ++ [T']) s)) ->
  awp (postfix_body q) Q (L c n (Some q) (K ++ [T]) s).
Proof.
  intros HT H. assert (NS : c = L_PAREN \/ c = DOT -> ~ In c stops) by (intros [-> | ->] X; cbn in X; intuition discriminate).
  unfold postfix_body. repeat step1.
  - destruct HT as [[HT _]|[_ HT]]; [|destruct (NS (or_introl eq_refl) HT)].
    apply a_call_expr; [exact HT|]. intros. apply a_postfix; [left; split; [assumption|unfold skipped; congruence]|].
    intros. apply H; auto. intros X. destruct (NS (or_introl eq_refl) X).
  - destruct HT as [[HT _]|[_ HT]]; [|destruct (NS (or_intror eq_refl) HT)].
    apply a_field_expr; [exact HT|]. intros. apply a_postfix; [left; split; [assumption|unfold skipped; congruence]|].
    intros. apply H; auto. intros X. destruct (NS (or_intror eq_refl) X).
  - apply H; [|intros js E|reflexivity].
    + destruct HT as [[HT _]|[HT _]]; [apply k_unary_postfix; exact HT|exact HT].
    + destruct HT as [[_ HT]|[_ HT]]; [destruct (HT _ E)|exact HT].
Qed.

(** prefix operators bind tighter than all binary ones *)
Lemma made_255 u : made (RExpr 255) [u] -> made RUnary [u].
Proof.
  intros H. inversion H; subst; [assumption|].
  match goal with E : prec _ = Some _ |- _ => destruct (prec_pos _ _ E) end. lia.
Qed.
Lemma a_lhs (Q : option cmark -> lst -> Prop) c n l K s :
  (forall d c' n' T, made RUnary [T] -> ends_at T c' -> (In c stops -> c' = c) -> Q (Some d) (L c' n' (Some d) (K ++ [T]) s)) ->
  awp lhs_ Q (L c n l K s).
Proof.
  intros H. unfold lhs_. apply awp_bind, a_current. cbn [l_cur].
  destruct (kind_eqb c STAR || kind_eqb c BANG || kind_eqb c MINUS) eqn:E.
  - step1. step1. step1. step1. step1; [intros ->; discriminate E|]. intros Hc c' F. step1.
    apply a_expr_bp; [lia|]. intros d c2 n2 T' HT HE HP _. repeat step1. cbn [opt_tree app].
    apply H; [|discriminate|intros X; apply not_stops in X; intuition congruence].
    apply k_unary; [|apply made_255; exact HT]. destruct c; try discriminate E; cbn; auto.
  - apply awp_bind, a_atom_expr.
    { intros X. cbn in X. destruct X as [<-|[<-|[<-|[]]]]; discriminate E. }
    intros d c' n' T HT HS. apply awp_bind. apply a_postfix; [exact HT|].
    intros d2 c2 n2 T2 HT2 HE2 HS2. cbn [awp]. apply H; [exact HT2|exact HE2|]. intros X. rewrite HS2 by (rewrite HS; auto). auto.
Qed.
Lemma atom_nonbin T : made RAtom [T] -> nonbin T.
Proof.
  intros H. inversion H; subst; try (apply nonbin_node; discriminate).
  match goal with B : made RBlock _ |- _ => inversion B; subst end. apply nonbin_node; discriminate.
Qed.
Lemma unary_nonbin T : made RUnary [T] -> nonbin T.
Proof.
  intros H. inversion H; subst; try (apply nonbin_node; discriminate).
  match goal with B : made RPostfix _ |- _ => inversion B; subst end; try (apply nonbin_node; discriminate). apply atom_nonbin. assumption.
Qed.
Lemma made_binds p T : made (RExpr p) [T] -> binds p T.
Proof.
  intros H. inversion H; subst; [apply unary_nonbin; assumption|]. cbn. eexists. split; [eassumption|assumption].
Qed.
Lemma a_loop_body bp q (Q : option cmark -> lst -> Prop) c n K T s : 1 <= bp ->
  made (RExpr bp) [T] -> (forall p, prec c = Some p -> made (RExpr p) [T]) -> ends_at T c ->
  (forall d c' n' T', made (RExpr bp) [T'] -> ends_at T' c' -> (forall p, prec c' = Some p -> p < bp) -> (In c stops -> c' = c) ->
     Q (Some d) (L c' n' (Some d) (K ++ [T']) s)) ->
  awp (expr_bp_loop_body bp q) Q (L c n (Some q) (K ++ [T]) s).
Proof.
  intros HB HT HP HE H. unfold expr_bp_loop_body, current_op. step1. step1. step1. step1. cbv zeta. rewrite op_prec.
  destruct (prec c) as [p|] eqn:E; cbn [fst snd].
  2: { assert (X : (0 <? bp) = true) by lia. rewrite X. cbn [awp]. apply H; auto. intros p' E'. congruence. }
  destruct (p <? bp) eqn:Lt.
  { cbn [awp]. apply H; auto. intros p' E'. assert (p' = p) by congruence. lia. }
  pose proof (HP p eq_refl) as LT. destruct (prec_pos c p E) as [P1 P2].
  assert (NS : ~ In c stops) by (intros X; cbn in X; destruct X as [<-|[<-|[<-|[]]]]; discriminate E).
  assert (NK : forall js, T <> skipped m_expr js) by (intros js X; apply NS, (HE js X)).
  apply awp_bind, a_precede. intros m. apply awp_bind, a_bump; [intros ->; discriminate|].
  intros _ c' F. apply awp_bind, a_expr_bp; [lia|]. intros d c2 n2 T' HT' HE' HP' _.
  apply awp_bind, a_complete; [discriminate| |].
  { intros _. exists T, c, T', p. cbn [opt_tree app]. split; [reflexivity|]. split; [exact E|]. split; apply made_binds; assumption. }
  intros d'. cbn [opt_tree app].
  apply a_loop; [exact HB| | |discriminate|].
  - eapply k_expr_bin; [exact E|lia|exact LT|exact NK|exact HT'].
  - intros p' E'. pose proof (HP' _ E') as Lp. eapply k_expr_bin; [exact E|lia|exact LT|exact NK|exact HT'].
  - intros d2 c3 n3 T2 HT2 HE2 HP2 HS2. apply H; auto. intros X. contradiction.
Qed.

(** ** Statements *)
Lemma a_semi_optional c : yields (stmt_semi SemiOptional) c (fun _ c' new =>
  new = [TTok SEMICOLON] /\ c = SEMICOLON \/ new = [] /\ c' = c /\ c <> SEMICOLON).
Proof. intros n l K s Q H. unfold stmt_semi. repeat step1; subst; try discriminate; fin H; auto. Qed.
Lemma a_semi_yes c : yields (stmt_semi SemiYes) c (fun _ c' new =>
  new = [TTok SEMICOLON] /\ c = SEMICOLON \/ new = [TErr (m_token SEMICOLON)] /\ c' = c /\ c <> SEMICOLON).
Proof. intros n l K s Q H. unfold stmt_semi. repeat step1; subst; try discriminate; fin H; auto. Qed.
Lemma a_stmt ws (P : kind -> kind -> list tree -> Prop) c :
  (forall c0, yields (stmt_semi ws) c0 (fun _ c' new => P c0 c' new)) ->
  yields (stmt ws) c (fun _ c' new =>
    (exists t c0 sm, made (RExpr 1) [t] /\ ends_at t c0 /\ P c0 c' sm /\ new = [TNode EXPR_STMT (t :: sm)] /\ (In c stops -> c0 = c)) \/
    (exists l c0 sm, made RLet l /\ P c0 c' sm /\ new = [TNode LET_STMT (TTok LET_KW :: l ++ sm)] /\ c = LET_KW)).
Proof.
  intros HS n l K s Q H. unfold stmt, let_stmt. do 6 step1.
  - repeat step1; subst.
    all: apply HS; intros a9 c9 n9 l9 sm Hs; repeat step1; cbn [opt_tree app].
    all: rewrite <- ?app_assoc; cbn [app].
    all: apply H; right.
    + exists [x; TTok COLON; x0; TTok EQ; T']. do 2 eexists. split; [apply (k_let x [TTok COLON; x0] [TTok EQ; T']); first [assumption|constructor; assumption]|].
      split; [eassumption|]. split; reflexivity.
    + exists [x; TTok COLON; x0]. do 2 eexists. split; [apply (k_let x [TTok COLON; x0] []); first [assumption|constructor; assumption]|].
      split; [eassumption|]. split; reflexivity.
    + exists [x; TTok EQ; T']. do 2 eexists. split; [apply (k_let x [] [TTok EQ; T']); first [assumption|constructor; assumption]|].
      split; [eassumption|]. split; reflexivity.
    + exists [x]. do 2 eexists. split; [apply (k_let x [] []); first [assumption|constructor; assumption]|].
      split; [eassumption|]. split; reflexivity.
  - repeat step1. apply HS; intros a9 c9 n9 l9 sm Hs; repeat step1; cbn [opt_tree app].
    apply H. left. do 3 eexists. split; [eassumption|]. split; [eassumption|]. split; [eassumption|]. split; [reflexivity|assumption].
Qed.
Lemma a_block_contents_body c : yields block_contents_body c (fun _ _ new => made RStmts new /\ c <> R_PAREN /\ (c = EOF -> new = [])).
Proof.
  intros n l K s Q H. unfold block_contents_body. repeat step1; subst; try discriminate.
  1, 2: fin H; split; [constructor|]; split; [discriminate|auto].
  apply (a_stmt SemiOptional _ c a_semi_optional). intros a c2 n2 l2 new [(t & c0 & sm & HT & HE & HP & -> & HC)|(l0 & c0 & sm & HT & HP & -> & ->)].
  - apply a_block_contents. intros a2 c3 n3 l3 new2 (E1 & E2 & E3). fin H.
    split; [|split; [|intros ->; contradiction]].
    + destruct HP as [[-> ->]|(-> & -> & N)]; [apply k_stmts_expr; assumption|]. apply k_stmts_open; [assumption|assumption|].
      intros js ->. apply E3. specialize (HE _ eq_refl). cbn in HE. intuition congruence.
    + intros ->. specialize (HC (or_intror (or_introl eq_refl))). subst c0.
      destruct HP as [[_ X]|(_ & X & _)]; [discriminate X|]. exact (E2 X).
  - apply a_block_contents. intros a2 c3 n3 l3 new2 (E1 & E2 & E3). fin H. split; [|split; discriminate].
    destruct HP as [[-> _]|[-> _]]; [apply k_stmts_let; assumption|]. rewrite app_nil_r. apply k_stmts_let_open; assumption.
Qed.
Lemma a_expr_block_contents_body c : yields expr_block_contents_body c (fun _ _ new => made RJunkStmts new /\ c <> R_PAREN /\ (c = EOF -> new = [])).
Proof.
  intros n l K s Q H. unfold expr_block_contents_body. repeat step1; subst; try discriminate.
  1, 4: fin H; split; [constructor|]; split; [discriminate|auto].
  - apply a_expr_block_contents. intros a2 c3 n3 l3 new2 (E1 & E2 & E3). fin H. split; [apply k_junk_semi; assumption|]. split; discriminate.
  - apply (a_stmt SemiYes _ c a_semi_yes). intros a c2 n2 l2 new [(t & c0 & sm & HT & HE & HP & -> & HC)|(l0 & c0 & sm & HT & HP & -> & ->)];
      apply a_expr_block_contents; intros a2 c3 n3 l3 new2 (E1 & E2 & E3); fin H.
    + split; [|split; [|intros ->; contradiction]].
      * destruct HP as [[-> ->]|(-> & -> & N)]; apply k_junk_expr; try assumption; try tm.
        intros js ->. right. apply E3. specialize (HE _ eq_refl). cbn in HE. intuition congruence.
      * intros ->. specialize (HC (or_intror (or_introl eq_refl))). subst c0.
        destruct HP as [[_ X]|(_ & X & _)]; [discriminate X|]. exact (E2 X).
    + split; [|split; discriminate]. destruct HP as [[-> _]|[-> _]]; apply k_junk_let; try assumption; tm.
Qed.

(** ** Items *)
Lemma a_record_field (Q : unit -> lst -> Prop) c n l K s : c <> EOF -> c <> R_BRACE ->
  (forall c' n' l' x, c <> L_BRACE -> made RField [x] -> Q tt (L c' n' l' (K ++ [x]) s)) ->
  (c = L_BRACE -> forall n' l' x, Q tt (L c n' l' (K ++ [x]) s)) -> awp record_field Q (L c n l K s).
Proof.
  intros N1 N2 H1 H2. unfold record_field, name, name_r. repeat step1; subst; try congruence.
  1, 2: cbn [opt_tree app]; apply H1; [discriminate|]; apply k_field; [tm|assumption].
  unfold err_and_bump. cbn [app]. rewrite app_nil_r. apply a_err_recover.
  - intros X. apply H2. cbn in X. intuition congruence.
  - contradiction.
  - intros X c' d _. apply H1; [cbn in X; intuition|]. apply k_field_wrong. cbn in *. intuition congruence.
Qed.
Lemma a_record_fields_body c : yields record_fields_body c (until R_BRACE c (fun _ _ new => made RFields new /\ c <> L_BRACE)).
Proof.
  intros n l K s Q H. unfold record_fields_body. repeat step1; subst; try discriminate.
  - fin H. split; [split; [constructor|discriminate]|auto].
  - apply a_record_field; [assumption|assumption| |].
    + intros c' n' l' x Hc Hx. repeat step1; subst; fin H; listq; (split; [split; [|congruence]|congruence]); hold.
    + intros -> n' l' x. repeat step1; subst; try discriminate. listq. contradiction.
  - fin H. split; [split; [constructor|discriminate]|auto].
Qed.
Lemma a_record_field_list c : yields record_field_list c (fun _ _ new => exists fs x,
  new = [TNode RECORD_FIELD_LIST (TTok L_BRACE :: fs ++ [x])] /\ made RFields fs /\ token_or_message R_BRACE x).
Proof. intros n l K s Q H. unfold record_field_list. go H; listq; do 2 eexists; (split; [reflexivity|]); (split; [assumption|]); tm. Qed.
Lemma a_opt_ret_type c : yields opt_ret_type c (gives RRet).
Proof. intros n l K s Q H. unfold opt_ret_type. go H; constructor; assumption. Qed.
Ltac rules11 :=
  lazymatch goal with
  | |- awp record_field_list _ _ => apply a_record_field_list; intros ? ? ? ? ? (? & ? & -> & ? & ?)
  | |- awp opt_ret_type _ _ => use a_opt_ret_type
  | |- awp opt_generic_param_list _ _ => use a_opt_generic_param_list
  | |- awp param_list _ _ => apply a_param_list; intros ? ? ? ? ? (? & ? & ? & -> & ? & ? & ->)
  | |- _ => rules10
  end.
Ltac rules ::= rules11.
Lemma a_opt_item (Q : unit -> lst -> Prop) m c n l B s :
  (forall c' n' l' x, In c [FUN_KW; STRUCT_KW] -> made RItem [x] -> Q tt (L c' n' l' (B ++ [x]) s)) ->
  (~ In c [FUN_KW; STRUCT_KW] -> forall n' l', Q tt (L c n' l' (B ++ [TNode ERROR [TErr m_item]]) s)) ->
  awp (opt_item m) Q (L c n l [] (Open m None B :: s)).
Proof.
  intros H1 H2. unfold opt_item, function_def, struct_. repeat step1; subst.
  all: cbn [opt_tree app]; rewrite <- ?app_assoc; cbn [app].
  all: try (apply H1; [solve [cbn; auto]|]).
  1, 2: apply k_function; [assumption|first [apply k_param_list_gap|apply k_param_list; assumption]|assumption|].
  1, 2: match goal with H : _ \/ made RBlock _ |- _ => destruct H as [-> | H]; [apply k_fun_body_gap|apply k_fun_body; exact H] end.
  1: apply k_struct; assumption.
  1, 2: apply k_struct_semi; [assumption|assumption|auto].
  apply H2. cbn. intuition congruence.
Qed.
Lemma a_item (Q : unit -> lst -> Prop) c n l K s :
  (forall c' n' l' x, In c [FUN_KW; STRUCT_KW] -> made RItem [x] -> Q tt (L c' n' l' (K ++ [x]) s)) ->
  (forall c' n' l' x, In c [FUN_KW; STRUCT_KW] -> made RItem [x] -> Q tt (L c' n' l' (K ++ [x; instead m_semi SEMICOLON]) s)) ->
  (c = SEMICOLON -> forall c' n' l', Q tt (L c' n' l' (K ++ [TNode ERROR [TErr m_item]; instead m_semi SEMICOLON]) s)) ->
  (~ In c [FUN_KW; STRUCT_KW; SEMICOLON] -> forall n' l' new, Q tt (L c n' l' (K ++ new) s)) ->
  awp item Q (L c n l K s).
Proof.
  intros H1 H2 H3 H4. unfold item. step1. step1. step1. step1. apply a_opt_item.
  - intros c' n' l' x HI HX. repeat step1; subst; [|apply H1; assumption].
    unfold err_and_bump. apply a_err_recover; [intros X; cbn in X; intuition discriminate|discriminate|].
    intros _ c2 d _. rewrite <- app_assoc. apply H2; assumption.
  - intros NI n' l'. repeat step1; subst.
    + unfold err_and_bump. apply a_err_recover; [intros X; cbn in X; intuition discriminate|discriminate|].
      intros _ c2 d _. rewrite <- app_assoc. apply H3; reflexivity.
    + apply H4. cbn in *. intuition congruence.
Qed.
Lemma a_items_body c : yields items_body c (fun _ _ new => made RItems new /\ In c [R_BRACE; EOF; FUN_KW; STRUCT_KW; SEMICOLON]).
Proof.
  intros n l K s Q H. unfold items_body. repeat step1; subst; try discriminate.
  1, 2: fin H; split; [constructor|cbn; auto].
  apply a_item.
  - intros c' n' l' x HI HX. repeat step1. fin H. listq. split; [apply k_items; assumption|cbn in *; intuition].
  - intros c' n' l' x HI HX. repeat step1. fin H. listq. split; [apply k_items_semi; assumption|cbn in *; intuition].
  - intros -> c' n' l'. repeat step1. fin H. listq. split; [apply k_items_only_semi; assumption|cbn; auto 6].
  - intros NI n' l' new. repeat step1. listq. exfalso. cbn in *. intuition congruence.
Qed.
Lemma a_item_list c : yields item_list c (gives RBody).
Proof. intros n l K s Q H. unfold item_list. go H; listq; unfold gives; apply k_body_items; first [assumption|tm]. Qed.
Lemma a_address_ident_r r c : yields (address_ident_r r) c (fun _ _ new => exists a,
  new = [TNode ADDRESS_IDENT [a]] /\ made (RAddress r) [a]).
Proof.
  intros n l K s Q H. unfold address_ident_r. step1. step1. step1. step1. apply a_bump_address.
  - intros c' n' l' a Ha. repeat step1. fin H. eexists. split; [reflexivity|].
    cbn in Ha. destruct Ha as [<-|[<-|[]]]; constructor.
  - intros N. repeat step1. apply a_error_skip. intros d c2 n2 js A I M. repeat step1. fin H. eexists. split; [reflexivity|].
    apply k_address_skip; [exact A|]. eapply skip_head; eassumption.
Qed.
Ltac rules12 :=
  lazymatch goal with
  | |- awp item_list _ _ => use a_item_list
  | |- awp (address_ident_r _) _ _ => use1 a_address_ident_r
  | |- _ => rules11
  end.
Ltac rules ::= rules12.
Lemma a_module c : yields module c (fun _ _ new => exists x, new = [TNode MODULE_DEF x] /\ made RModule [TNode MODULE_DEF x] /\ c = MODULE_KW).
Proof.
  intros n l K s Q H. unfold module. repeat step1; subst; try discriminate.
  all: fin H; eexists; (split; [reflexivity|]); (split; [|reflexivity]).
  all: first [apply k_module_at; [assumption|assumption|]|apply k_module; [assumption|]]; first [assumption|constructor].
Qed.
Ltac rules13 :=
  lazymatch goal with
  | |- awp module _ _ => apply a_module; intros ? ? ? ? ? (? & -> & ? & ?)
  | |- _ => rules12
  end.
Ltac rules ::= rules13.
Lemma a_address_items_body c : yields address_items_body c (gives RModules).
Proof. intros n l K s Q H. unfold address_items_body. go H; constructor; assumption. Qed.
Lemma a_address_item_list c : yields address_item_list c (fun _ _ new => exists ms x,
  new = [TNode ADDRESS_ITEM_LIST (TTok L_BRACE :: ms ++ [x])] /\ made RModules ms /\ token_or_message R_BRACE x).
Proof. intros n l K s Q H. unfold address_item_list. go H; listq; do 2 eexists; (split; [reflexivity|]); (split; [assumption|]); tm. Qed.
Ltac rules14 :=
  lazymatch goal with
  | |- awp address_item_list _ _ => apply a_address_item_list; intros ? ? ? ? ? (? & ? & -> & ? & ?)
  | |- _ => rules13
  end.
Ltac rules ::= rules14.
Lemma a_script c : yields script c (fun _ _ new => exists x, new = [TNode SCRIPT_DEF x] /\ made RTop [TNode SCRIPT_DEF x]).
Proof.
  intros n l K s Q H. unfold script. repeat step1; subst; try discriminate.
  all: fin H; eexists; (split; [reflexivity|]); apply k_top_script; first [assumption|constructor].
Qed.
Lemma a_address c : yields address c (fun _ _ new => exists x, new = [TNode ADDRESS_DEF x] /\ made RTop [TNode ADDRESS_DEF x]).
Proof.
  intros n l K s Q H. unfold address. repeat step1; subst; try discriminate.
  all: fin H; eexists; (split; [reflexivity|]); first [apply k_top_address; assumption|apply k_top_address_gap; assumption].
Qed.
Ltac rules15 :=
  lazymatch goal with
  | |- awp script _ _ => use1 a_script
  | |- awp address _ _ => use1 a_address
  | |- awp (call F_root) _ _ => apply a_root; intros ? ? ? ? ? [? ?]
  | |- _ => rules14
  end.
Ltac rules ::= rules15.
Lemma a_root_body c : yields root_body c (fun _ _ new => made RFile (filter not_blank new) /\
  (In c [EOF; MODULE_KW; SCRIPT_KW; ADDRESS_KW] \/ is_trivia c = true)).
Proof.
  intros n l K s Q H. unfold root_body. repeat step1; subst; try discriminate; try contradiction.
  all: fin H; cbn [filter not_blank].
  - split; [constructor|left; cbn; auto].
  - split; [apply k_file; [apply k_top_module|]; assumption|left; cbn; auto].
  - split; [apply k_file; assumption|left; cbn; auto].
  - split; [apply k_file; assumption|left; cbn; auto].
  - match goal with E : is_trivia _ = true |- _ => rewrite E end. cbn [negb]. auto.
  - exfalso. match goal with E : _ \/ is_trivia _ = true |- _ => cbn in E end. intuition congruence.
Qed.

(** ** All of them *)
Lemma yields_grows f c n l K s (P : fn_ret f -> kind -> forest -> Prop) (R : fn_ret f -> lst -> Prop) : yields (body f) c P ->
  (forall a st', lgrows (P a) (L c n l K s) st' -> R a st') ->
  awp (body f) R (L c n l K s).
Proof.
  intros Y H. apply Y. intros a c' n' l' new HP. apply H. split; [reflexivity|]. exists new. split; [reflexivity|exact HP].
Qed.
Ltac body f H := apply (yields_grows f _ _ _ _ _ _ _ H); intros ? ? Hg; exact Hg.
Lemma abody_sound f st : apre f st -> awp (body f) (apost f st) st.
Proof.
  intros P. destruct st as [c n l K s]. destruct f; cbn [apre] in P.
  - cbn [body]. apply a_skip_until_body; [exact P|]. auto.
  - body F_root (a_root_body c).
  - body F_address_items (a_address_items_body c).
  - body F_items (a_items_body c).
  - body F_record_fields (a_record_fields_body c).
  - body F_generic_params (a_generic_params_body c).
  - body F_bounds (a_bounds_body c).
  - body F_params (a_params_body c).
  - destruct P as (f0 & t & [P1 P2] & P3). cbn [l_last l_kids] in *. subst. cbn [body].
    apply a_path_for_qualifier_body; [exact P3|]. intros. cbn [apost l_stack l_kids l_cur]. split; [reflexivity|].
    exists f0, t, T'. auto 6.
  - body F_type (a_type_body c).
  - body F_block_contents (a_block_contents_body c).
  - body F_expr_block_contents (a_expr_block_contents_body c).
  - cbn [body]. unfold expr_bp_body. apply awp_bind, a_lhs. intros d c' n' T HT HE HS.
    apply a_loop; [exact P|apply k_expr_unary; exact HT|intros; apply k_expr_unary; exact HT|exact HE|].
    intros d' c2 n2 T' HT' HE' HP' HS'. cbn [apost l_stack l_kids l_cur]. split; [reflexivity|].
    exists d', T'. split; [reflexivity|]. split; [split; reflexivity|]. do 3 (split; [assumption|]).
    intros X. rewrite HS' by (rewrite HS; auto). auto.
  - destruct P as (P0 & f0 & t & [P1 P2] & P3 & P4 & P5). cbn [l_last l_kids l_cur] in *. subst. cbn [body].
    apply a_loop_body; auto. intros d' c2 n2 T' HT' HE' HP' HS'. cbn [apost l_stack l_kids l_cur]. split; [reflexivity|].
    exists f0, t, d', T'. split; [reflexivity|]. split; [reflexivity|]. split; [split; reflexivity|]. auto.
  - destruct P as (f0 & t & [P1 P2] & P3). cbn [l_last l_kids l_cur] in *. subst. cbn [body].
    apply a_postfix_body; auto. intros d' c2 n2 T' HT' HE' HS'. cbn [apost l_stack l_kids l_cur]. split; [reflexivity|].
    exists f0, t, T'. split; [reflexivity|]. split; [split; reflexivity|]. auto.
  - body F_args (a_args_body c).
  - body F_paren (a_paren_body c).
  - body F_record_expr_fields (a_record_expr_fields_body c).
  - body F_pattern (a_pattern_body c).
  - destruct P as [-> P]. body (F_tuple_pat has_comma has_pat false) (a_tuple_pat_body has_comma has_pat c P).
  - body F_record_pat_fields (a_record_pat_fields_body c).
Qed.

(** ** Whole files *)
Lemma run_root_made t lx fuel u s : lexer_new t = Ok lx -> interp (run fuel) root (parser_new lx) = Ok (u, s) ->
  exists new, den (ps_events s) [TNode SOURCE_FILE new] /\ made RFile (filter not_blank new).
Proof.
  intros HL E. destruct (lexer_new_inv _ _ HL) as (k & len & I).
  assert (R : lrel false t (parser_new lx) (L k None None [] [])).
  { constructor; [|discriminate|discriminate]. constructor; cbn.
    - constructor. constructor.
    - exact Logic.I.
    - exists [], t, len. cbn. split; [exact I|]. split; [constructor|]. split; [constructor|].
      split; [congruence|constructor].
    - constructor. }
  assert (W : awp root (fun _ st' => l_stack st' = [] /\ exists new, l_kids st' = [TNode SOURCE_FILE new] /\
      made RFile (filter not_blank new)) (L k None None [] [])).
  { unfold root. apply awp_bind, a_start. intros m. apply awp_bind, a_root. intros a c' n' l' new [Hn _].
    apply awp_bind, a_complete; [discriminate|intro; discriminate|]. intros r. cbn [awp l_stack l_kids].
    split; [reflexivity|]. exists new. cbn. auto. }
  pose proof (ainterp_sound t fuel (arun_sound t abody_sound fuel) _ _ _ _ _ R W) as O.
  rewrite E in O. cbn [aoutcome] in O. destruct O as (st & [[RL _ _ _] _ _] & H1 & new & H2 & H3).
  exists new. split; [|exact H3]. cbn [to_ast a_stack a_kids] in RL. rewrite H1, H2 in RL. inversion RL; subst. assumption.
Qed.
