(** A program logic for the grammar functions of Grammar.v.

    An abstract parser state holds the kind of the current token and the
    forests built so far (one per open marker).  [wp] runs a grammar function
    on abstract states; [sound] shows that the real parser follows. *)
From Coq Require Import String.
From Verif Require Import Base BaseProofs Kinds KindsProofs Lexer LexerRuns LexerProofs LexerStateProofs
  Parser Grammar TreeSpec.
Local Open Scope N_scope.

Definition forest := list tree.
Definition fleaves (f : forest) : list kind := flat_map leaves f.
Definition opt_tree (o : option tree) : forest := match o with Some t => [t] | None => [] end.

(** ** Event segments and the forests they denote *)
Inductive den : list event -> forest -> Prop :=
| den_nil : den [] []
| den_tok k s f : den s f -> den (EToken k 1 :: s) (TTok k :: f)
| den_err m s f : den s f -> den (EError m :: s) (TErr m :: f)
| den_tomb s f : den s f -> den (tombstone :: s) f
| den_node n t off s f : chain None n t off -> den s f -> den (n ++ s) (t :: f)
(** [chain inner seg t off]: [seg] is a node, or several linked by forward
    parents, that encloses the tree [inner] if there is one; [off] is the
    position of the start event of the outermost of them *)
with chain : option tree -> list event -> tree -> nat -> Prop :=
| chain_last i k s f : k <> TOMBSTONE -> den s f ->
    chain i (EStart k None :: s ++ [EFinish]) (TNode k (opt_tree i ++ f)) 0
| chain_more i k s f seg t off : k <> TOMBSTONE -> den s f ->
    chain (Some (TNode k (opt_tree i ++ f))) seg t off ->
    chain i (EStart k (Some (length s + 2)%nat) :: s ++ EFinish :: seg) t (length s + 2 + off).
Scheme den_mut := Minimality for den Sort Prop
with chain_mut := Minimality for chain Sort Prop.

Lemma den_app a fa b fb : den a fa -> den b fb -> den (a ++ b) (fa ++ fb).
Proof.
  induction 1; intros Hb; cbn [app]; try (constructor; auto); [exact Hb|].
  rewrite <- app_assoc. eapply den_node; eauto.
Qed.

(** ** Abstract states *)
Record open_ := Open { o_pos : nat; o_first : option tree; o_before : forest }.
Record ast := Ast { a_cur : kind; a_last : option cmark; a_kids : forest; a_stack : list open_ }.

Inductive lay : list event -> list open_ -> forest -> Prop :=
| lay_base seg f : den seg f -> lay seg [] f
| lay_start evs stk f0 seg f : lay evs stk f0 -> den seg f ->
    lay (evs ++ tombstone :: seg) (Open (length evs) None f0 :: stk) f
| lay_precede evs stk f0 n off k t seg f : lay evs stk f0 -> chain None n t off ->
    nth_error n off = Some (EStart k None) -> den seg f ->
    lay (evs ++ set_nth n off (EStart k (Some (length n - off)%nat)) ++ tombstone :: seg)
        (Open (length evs + length n) (Some t) f0 :: stk) f.

Lemma lay_app evs stk f seg g : lay evs stk f -> den seg g -> lay (evs ++ seg) stk (f ++ g).
Proof.
  intros H D. inversion H; subst.
  - constructor. apply den_app; auto.
  - rewrite <- app_assoc. cbn [app]. constructor; [auto|]. apply den_app; auto.
  - rewrite <- !app_assoc. cbn [app]. eapply lay_precede; eauto. apply den_app; auto.
Qed.

(** leaves of everything built so far *)
Fixpoint total (stk : list open_) (f : forest) : forest :=
  match stk with
  | [] => f
  | o :: r => total r (o_before o ++ opt_tree (o_first o) ++ f)
  end.

(** the last child of the top forest was completed by [c] *)
Definition last_ok (evs : list event) (st : ast) : Prop :=
  match a_last st with
  | None => True
  | Some c => exists evs0 n t off f0, evs = evs0 ++ n /\ a_kids st = f0 ++ [t] /\
      lay evs0 (a_stack st) f0 /\ chain None n t off /\ cm_start c = (length evs0 + off)%nat
  end.

(** Token events against the tokens of the lexer: one group per [bump]. *)
Definition group := ((kind * text) * list (kind * text))%type.
Definition ungroup (gs : list group) : list (kind * text) := flat_map (fun g => fst g :: snd g) gs.
(** kind of the event for a token of kind [k0] *)
Definition remap (k0 k : kind) : Prop := k = k0 \/ k0 = INTEGER_NUMBER /\ k = DIEM_ADDRESS.
Definition group_ok (g : group) : Prop := Forall trivia_piece (snd g) /\ fst (fst g) <> EOF.
Definition solid (g : group) : Prop := is_trivia (fst (fst g)) = false.

Definition lex_ok (t : text) (lx : lexer) (cur : kind) (ks : list kind) : Prop :=
  exists gs rest len, lx_inv t lx (ungroup gs) rest cur len /\
    Forall group_ok gs /\ Forall solid (tl gs) /\ (gs <> [] -> is_trivia cur = false) /\
    Forall2 (fun g k => remap (fst (fst g)) k) gs ks.

Record rel (t : text) (s : pstate) (st : ast) : Prop := {
  r_lay : lay (ps_events s) (a_stack st) (a_kids st);
  r_last : last_ok (ps_events s) st;
  r_lex : lex_ok t (ps_lexer s) (a_cur st) (fleaves (total (a_stack st) (a_kids st)));
  r_ok : Forall tree_ok (total (a_stack st) (a_kids st))
}.

(** ** The abstract semantics *)
Definition set_kids (st : ast) (f : forest) : ast := Ast (a_cur st) None f (a_stack st).

Definition step {B} (c : cmd B) (st : ast) : (B -> ast -> Prop) -> Prop :=
  match c in cmd B return (B -> ast -> Prop) -> Prop with
  | CNth O => fun K => K (a_cur st) st
  | CNth _ => fun K => forall k, K k st
  | CCurrent => fun K => K (a_cur st) st
  | CCurrentText => fun K => forall x, K x st
  | CStart => fun K => forall m, K m (Ast (a_cur st) None [] (Open m None (a_kids st) :: a_stack st))
  | CDoBump k => fun K => remap (a_cur st) k /\ a_cur st <> EOF /\
      forall cur', is_trivia cur' = false ->
        K tt (Ast cur' None (a_kids st ++ [TTok k]) (a_stack st))
  | CError msg => fun K => K tt (set_kids st (a_kids st ++ [TErr msg]))
  | CComplete m k => fun K => match a_stack st with
      | o :: stk => o_pos o = m /\ k <> TOMBSTONE /\ node_ok k (opt_tree (o_first o) ++ a_kids st) /\
          forall c, K c (Ast (a_cur st) (Some c)
                         (o_before o ++ [TNode k (opt_tree (o_first o) ++ a_kids st)]) stk)
      | [] => False
      end
  | CAbandon m => fun K => match a_stack st with
      | o :: stk => o_pos o = m /\ o_first o = None /\
          K tt (Ast (a_cur st) None (o_before o ++ a_kids st) stk)
      | [] => False
      end
  | CPrecede c => fun K => a_last st = Some c /\ exists f0 t, a_kids st = f0 ++ [t] /\
      forall m, K m (Ast (a_cur st) None [] (Open m (Some t) f0 :: a_stack st))
  | CAssert b => fun K => b = true -> K tt st
  end.

(** Contracts of the recursive functions. *)
Definition nonbin (t : tree) : Prop := forall n, binds n t.
Definition grows (st st' : ast) : Prop :=
  a_stack st' = a_stack st /\ exists new, a_kids st' = a_kids st ++ new.
Definition last_child (st : ast) (c : cmark) (f0 : forest) (t : tree) : Prop :=
  a_last st = Some c /\ a_kids st = f0 ++ [t].

Definition pre (f : fn) (st : ast) : Prop :=
  match f with
  | F_skip_until ts => In EOF ts
  | F_path_for_qualifier q => exists f0 t, last_child st q f0 t
  | F_postfix q => exists f0 t, last_child st q f0 t /\ nonbin t
  | F_expr_bp bp => 1 <= bp
  | F_expr_bp_loop bp q => 1 <= bp /\ exists f0 t, last_child st q f0 t /\ binds bp t /\
      forall p, prec (a_cur st) = Some p -> binds p t
  | _ => True
  end.

Definition post (f : fn) (st : ast) : fn_ret f -> ast -> Prop :=
  match f return fn_ret f -> ast -> Prop with
  | F_root => fun _ st' => a_stack st' = a_stack st /\ a_cur st' = EOF /\
      exists new, a_kids st' = a_kids st ++ new /\
        (is_trivia (a_cur st) = true -> exists k new', new = TTok k :: new')
  | F_path_for_qualifier q => fun _ st' => a_stack st' = a_stack st /\
      exists f0 t t', a_kids st = f0 ++ [t] /\ a_kids st' = f0 ++ [t']
  | F_postfix q => fun c st' => a_stack st' = a_stack st /\
      exists f0 t t', a_kids st = f0 ++ [t] /\ last_child st' c f0 t' /\ nonbin t'
  | F_expr_bp bp => fun o st' => a_stack st' = a_stack st /\
      exists c t', o = Some c /\ last_child st' c (a_kids st) t' /\ binds bp t' /\
        forall p, prec (a_cur st') = Some p -> p < bp
  | F_expr_bp_loop bp q => fun o st' => a_stack st' = a_stack st /\
      exists f0 t c t', a_kids st = f0 ++ [t] /\ o = Some c /\ last_child st' c f0 t' /\ binds bp t' /\
        forall p, prec (a_cur st') = Some p -> p < bp
  | _ => fun _ st' => grows st st'
  end.

Fixpoint wp {A} (p : prog A) (Q : A -> ast -> Prop) (st : ast) : Prop :=
  match p with
  | Ret a => Q a st
  | Do c k => step c st (fun b st' => wp (k b) Q st')
  | Call f k => pre f st /\ forall b st', post f st b st' -> wp (k b) Q st'
  end.

Lemma step_mono {B} (c : cmd B) st (K K' : B -> ast -> Prop) :
  (forall b st', K b st' -> K' b st') -> step c st K -> step c st K'.
Proof.
  intros H. destruct c as [[|n]| | | | | | | | |]; cbn [step]; auto.
  - intros (H1 & H2 & H3). auto 6.
  - destruct (a_stack st); [auto|]. intros (H1 & H2 & H3 & H4). auto 6.
  - destruct (a_stack st); [auto|]. intros (H1 & H2 & H3). auto 6.
  - intros (H1 & f0 & t & H2 & H3). split; [auto|]. exists f0, t. auto.
Qed.

Lemma wp_mono {A} (p : prog A) (Q Q' : A -> ast -> Prop) :
  (forall a st, Q a st -> Q' a st) -> forall st, wp p Q st -> wp p Q' st.
Proof.
  intros H. induction p as [a|B c k IH|f k IH]; intros st; cbn [wp]; auto.
  - apply step_mono. auto.
  - intros [H1 H2]. split; auto.
Qed.

Lemma wp_bind {A B} (p : prog A) (q : A -> prog B) Q st :
  wp p (fun a st' => wp (q a) Q st') st -> wp (pbind p q) Q st.
Proof.
  revert st. induction p as [a|C c k IH|f k IH]; intros st; cbn [wp pbind]; auto.
  - apply step_mono. auto.
  - intros [H1 H2]. split; auto.
Qed.

(** ** Soundness *)
Definition soft (w : why) : Prop := w = PAssert \/ w = PTodo \/ w = PSlice.
Definition outcome (t : text) {A} (Q : A -> ast -> Prop) (r : res (A * pstate)) : Prop :=
  match r with
  | Ok (a, s') => exists st', rel t s' st' /\ Q a st'
  | Panic w => soft w
  | Fuel => True
  end.

Lemma nth_error_app_r {A} (a b : list A) n : nth_error (a ++ b) (length a + n) = nth_error b n.
Proof. rewrite nth_error_app2 by lia. f_equal. lia. Qed.
Lemma set_nth_app_r {A} (a b : list A) n x : set_nth (a ++ b) (length a + n) x = a ++ set_nth b n x.
Proof. induction a; cbn [app length set_nth Nat.add]; [reflexivity|]. rewrite IHa. reflexivity. Qed.
Lemma set_nth_length {A} (l : list A) n x : length (set_nth l n x) = length l.
Proof. revert n; induction l; intros [|n]; cbn [set_nth length]; auto. Qed.
Lemma set_nth_app_l {A} (a b : list A) n x : (n < length a)%nat -> set_nth (a ++ b) n x = set_nth a n x ++ b.
Proof.
  revert n; induction a; intros [|n] H; cbn [app length set_nth] in *; try lia; [reflexivity|].
  rewrite IHa by lia. reflexivity.
Qed.
Lemma set_nth_same {A} (l : list A) n x : nth_error l n = Some x -> set_nth l n x = l.
Proof. revert n; induction l; intros [|n] H; cbn in *; try congruence. rewrite IHl; congruence. Qed.

Lemma chain_at i n t off : chain i n t off ->
  (off < length n)%nat /\ exists k, nth_error n off = Some (EStart k None).
Proof.
  induction 1 as [i k s f Hk D|i k s f seg t off Hk D C [IH1 [k' IH2]]].
  - cbn [length nth_error]. split; [lia|eauto].
  - set (A := (EStart k (Some (length s + 2)%nat) :: s) ++ [EFinish]).
    assert (EA : EStart k (Some (length s + 2)%nat) :: s ++ EFinish :: seg = A ++ seg).
    { unfold A. cbn [app]. rewrite <- app_assoc. reflexivity. }
    assert (LA : length A = (length s + 2)%nat).
    { unfold A. rewrite app_length. cbn [length]. lia. }
    rewrite EA, <- LA, app_length. split; [lia|]. exists k'.
    rewrite nth_error_app_r. exact IH2.
Qed.

(** A finished chain whose outermost node gets one more parent. *)
Lemma chain_extend i n t off k k2 s f : chain i n t off ->
  nth_error n off = Some (EStart k None) -> k2 <> TOMBSTONE -> den s f ->
  chain i (set_nth n off (EStart k (Some (length n - off)%nat)) ++ EStart k2 None :: s ++ [EFinish])
    (TNode k2 (t :: f)) (length n).
Proof.
  intros C. induction C as [i k0 s0 f0 Hk D|i k0 s0 f0 seg t off Hk D C IH]; intros E H2 D2.
  - cbn [nth_error] in E. injection E as ->. cbn [set_nth length].
    rewrite app_length. cbn [length app].
    replace (S (length s0 + 1) - 0)%nat with (length s0 + 2)%nat by lia.
    replace (S (length s0 + 1))%nat with (length s0 + 2 + 0)%nat by lia.
    rewrite <- app_assoc. cbn [app]. apply (chain_more i k s0 f0); auto.
    apply (chain_last (Some (TNode k (opt_tree i ++ f0))) k2 s f); auto.
  - set (A := (EStart k0 (Some (length s0 + 2)%nat) :: s0) ++ [EFinish]).
    assert (EA : EStart k0 (Some (length s0 + 2)%nat) :: s0 ++ EFinish :: seg = A ++ seg).
    { unfold A. cbn [app]. rewrite <- app_assoc. reflexivity. }
    assert (LA : length A = (length s0 + 2)%nat).
    { unfold A. rewrite app_length. cbn [length]. lia. }
    rewrite EA in *. rewrite <- LA in *. rewrite nth_error_app_r in E. rewrite set_nth_app_r.
    rewrite app_length.
    replace (length A + length seg - (length A + off))%nat with (length seg - off)%nat by lia.
    specialize (IH E H2 D2). rewrite LA, <- app_assoc. unfold A. cbn [app]. rewrite <- app_assoc. cbn [app].
    apply (chain_more i k0 s0 f0); auto.
Qed.

Lemma fleaves_app a b : fleaves (a ++ b) = fleaves a ++ fleaves b.
Proof. apply flat_map_app. Qed.

Lemma total_app stk : forall f g, total stk (f ++ g) = total stk f ++ g.
Proof.
  induction stk as [|o stk IH]; intros f g; cbn [total]; [reflexivity|].
  rewrite app_assoc, app_assoc, IH. rewrite <- app_assoc. reflexivity.
Qed.

Lemma total_leaves stk f g : fleaves f = fleaves g -> fleaves (total stk f) = fleaves (total stk g).
Proof.
  revert f g. induction stk as [|o stk IH]; intros f g E; cbn [total]; [exact E|].
  apply IH. rewrite !fleaves_app, E. reflexivity.
Qed.

Lemma total_ok stk : forall f, Forall tree_ok (total stk f) <-> Forall tree_ok (total stk []) /\ Forall tree_ok f.
Proof.
  intros f. change f with ([] ++ f) at 1. rewrite total_app, Forall_app. reflexivity.
Qed.

Lemma all_forest (f : forest) :
  (fix all (l : list tree) : Prop := match l with [] => True | x :: r => tree_ok x /\ all r end) f
  <-> Forall tree_ok f.
Proof.
  induction f as [|x f IH]; [split; auto|]. split.
  - intros [H1 H2]. constructor; [exact H1|apply IH; exact H2].
  - intros H. inversion H; subst. split; [auto|apply IH; auto].
Qed.

Lemma ungroup_app a b : ungroup (a ++ b) = ungroup a ++ ungroup b.
Proof. apply flat_map_app. Qed.

Lemma slice_soft_to t n w : slice_to t n = Panic w -> w = PSlice.
Proof. unfold slice_to. destruct (split_at t n) as [[? ?]|]; congruence. Qed.
Lemma slice_soft_from t n w : slice_from t n = Panic w -> w = PSlice.
Proof. unfold slice_from. destruct (split_at t n) as [[? ?]|]; congruence. Qed.
Lemma find_token_soft t w : find_token t = Panic w -> w = PTodo.
Proof.
  intros H. destruct (find_token_panics t) as [H' _]; [intros k n E; congruence|congruence].
Qed.

Lemma bind_panic {A B} (m : res A) (f : A -> res B) w : bind m f = Panic w ->
  m = Panic w \/ exists a, m = Ok a /\ f a = Panic w.
Proof. destruct m as [a|w'|]; cbn [bind]; intros H; [right; eauto|left; congruence|discriminate]. Qed.

Lemma bump_soft fuel : forall lx w, lx_bump_fuel fuel lx = Panic w -> soft w.
Proof.
  unfold soft. induction fuel as [|fuel IH]; intros lx w H; [discriminate|]. cbn [lx_bump_fuel] in H.
  apply bind_panic in H as [H|(b & Hb & H)]; [apply slice_soft_from in H; auto|].
  apply bind_panic in H as [H|([k n] & F & H)]; [apply find_token_soft in H; auto|].
  destruct (is_trivia k); [eauto|discriminate].
Qed.

Lemma lookahead_soft lx n w : lx_lookahead_nth lx n = Panic w -> soft w.
Proof.
  unfold soft. destruct n as [|[|[|n]]]; cbn [lx_lookahead_nth]; try discriminate; intros H; try (injection H as <-; auto).
  - unfold lx_lookahead in H. apply bind_panic in H as [H|(b & Hb & H)]; [apply slice_soft_from in H; auto|].
    apply bind_panic in H as [H|([k l] & F & H)]; [apply find_token_soft in H; auto|discriminate].
  - apply bind_panic in H as [H|(p & Hp & H)]; [|discriminate].
    unfold lx_lookahead_2 in H. apply bind_panic in H as [H|(b & Hb & H)]; [apply slice_soft_from in H; auto|].
    apply bind_panic in H as [H|([k l] & F & H)]; [apply find_token_soft in H; auto|].
    apply bind_panic in H as [H|(b2 & Hb2 & H)]; [apply slice_soft_from in H; auto|].
    apply bind_panic in H as [H|([k2 l2] & F2 & H)]; [apply find_token_soft in H; auto|discriminate].
Qed.

Lemma cur_kind t lx cur ks : lex_ok t lx cur ks -> t_kind (lx_current lx) = cur.
Proof.
  intros (gs & rest & len & I & _). unfold lx_current. rewrite (li_tok _ _ _ _ _ _ I). reflexivity.
Qed.

Lemma lex_bump t lx cur ks lx' k : lex_ok t lx cur ks -> lx_bump lx = Ok lx' -> remap cur k -> cur <> EOF ->
  exists cur', is_trivia cur' = false /\ lex_ok t lx' cur' (ks ++ [k]).
Proof.
  intros (gs & rest & len & I & G1 & G2 & G3 & G4) B Hr Hne.
  destruct (bump_inv _ _ _ _ _ _ _ I B) as (w & tr & rest' & k' & len' & L & Ft & S & Hk & I').
  exists k'. split; [exact Hk|].
  exists (gs ++ [((cur, w), tr)]), rest', len'. rewrite ungroup_app. cbn [ungroup flat_map fst snd].
  rewrite app_nil_r. split; [exact I'|]. split; [|split; [|split; [auto|]]].
  - apply Forall_app. split; [exact G1|]. constructor; [split; [exact Ft|exact Hne]|constructor].
  - destruct gs as [|g gs]; cbn [app tl]; [constructor|]. cbn [tl] in G2.
    apply Forall_app. split; [exact G2|]. constructor; [|constructor].
    unfold solid. cbn [fst]. apply G3. discriminate.
  - apply Forall2_app; [exact G4|]. constructor; [exact Hr|constructor].
Qed.

Lemma lay_pos evs stk f o : lay evs (o :: stk) f -> exists fp, nth_error evs (o_pos o) = Some (EStart TOMBSTONE fp) /\ fp = None.
Proof.
  intros H. inversion H as [|evs0 ? f0 seg ? L D|evs0 ? f0 n off k t seg ? L C E D]; subst; cbn [o_pos].
  - exists None. split; [|reflexivity].
    replace (length evs0) with (length evs0 + 0)%nat by lia. rewrite nth_error_app_r. reflexivity.
  - exists None. split; [|reflexivity]. rewrite app_assoc.
    set (n' := set_nth n off _).
    replace (length evs0 + length n)%nat with (length (evs0 ++ n') + 0)%nat
      by (unfold n'; rewrite app_length, set_nth_length; lia).
    rewrite nth_error_app_r. reflexivity.
Qed.

(** closing the top marker *)
Lemma lay_complete evs stk f o k : lay evs (o :: stk) f -> k <> TOMBSTONE ->
  exists evs0 n off, set_nth evs (o_pos o) (EStart k None) ++ [EFinish] = evs0 ++ n /\
    lay evs0 stk (o_before o) /\ chain None n (TNode k (opt_tree (o_first o) ++ f)) off /\
    o_pos o = (length evs0 + off)%nat.
Proof.
  intros H Hk. inversion H as [|evs0 ? f0 seg ? L D|evs0 ? f0 n off k0 t seg ? L C E D]; subst; cbn [o_pos o_before o_first].
  - exists evs0, (EStart k None :: seg ++ [EFinish]), 0%nat.
    split; [|split; [exact L|split; [|lia]]].
    + replace (length evs0) with (length evs0 + 0)%nat at 1 by lia. rewrite set_nth_app_r. cbn [set_nth].
      rewrite <- app_assoc. reflexivity.
    + apply (chain_last None k seg f); auto.
  - set (n' := set_nth n off (EStart k0 (Some (length n - off)%nat))).
    exists evs0, (n' ++ EStart k None :: seg ++ [EFinish]), (length n).
    split; [|split; [exact L|split; [|lia]]].
    + rewrite app_assoc.
      replace (length evs0 + length n)%nat with (length (evs0 ++ n') + 0)%nat
        by (unfold n'; rewrite app_length, set_nth_length; lia).
      rewrite set_nth_app_r. cbn [set_nth]. rewrite <- !app_assoc. reflexivity.
    + cbn [opt_tree app]. apply (chain_extend None n t off k0 k seg f); auto.
Qed.

Lemma chain_tree i n t off : chain i n t off -> exists k f, t = TNode k f.
Proof. induction 1; eauto. Qed.

Lemma exec_sound t {B} (c : cmd B) s st (K : B -> ast -> Prop) :
  rel t s st -> step c st K -> outcome t K (exec c s).
Proof.
  intros [RL RLa RX RO] HK. destruct c as [n| | | |k|msg|m k|m|c|b]; cbn [exec].
  - (* nth *)
    unfold exec_nth. destruct (Nat.leb n 3); cbn [assert_ bind]; [|left; reflexivity].
    destruct (ps_steps s <=? 10000); cbn [assert_ bind]; [|left; reflexivity].
    destruct (lx_lookahead_nth (ps_lexer s) n) as [tok|w|] eqn:E; cbn [bind outcome]; [|exact (lookahead_soft _ _ _ E)|exact I].
    exists st. split; [constructor; auto|].
    destruct n as [|n]; [|apply HK]. cbn [step] in HK.
    cbn [lx_lookahead_nth] in E. injection E as <-. rewrite (cur_kind _ _ _ _ RX). exact HK.
  - (* current *)
    cbn [outcome]. exists st. split; [constructor; auto|]. rewrite (cur_kind _ _ _ _ RX). exact HK.
  - (* current text *)
    destruct (lx_current_text (ps_lexer s)) as [x|w|] eqn:E; cbn [bind outcome]; [|unfold soft|exact I].
    + exists st. split; [constructor; auto|]. apply HK.
    + unfold lx_current_text in E. apply bind_panic in E as [E|(y & _ & E)].
      * apply slice_soft_to in E. auto.
      * apply slice_soft_from in E. auto.
  - (* start *)
    cbn [outcome exec_start]. eexists. split; [|apply HK]. constructor; cbn [a_stack a_kids a_cur push_event ps_events ps_lexer].
    + change [tombstone] with (tombstone :: []). apply lay_start; [exact RL|constructor].
    + exact I.
    + cbn [total o_before o_first opt_tree app]. rewrite app_nil_r. exact RX.
    + cbn [total o_before o_first opt_tree app]. rewrite app_nil_r. exact RO.
  - (* do_bump *)
    cbn [step] in HK. destruct HK as (Hr & He & HK).
    destruct (exec_do_bump k s) as [s'|w|] eqn:E; unfold exec_do_bump in E; cbn [bind outcome].
    + apply bind_ok in E as (lx' & E & E'). injection E' as <-.
      destruct (lex_bump _ _ _ _ _ k RX E Hr He) as (cur' & Hc & X).
      eexists. split; [|apply (HK cur' Hc)]. constructor; cbn [a_stack a_kids a_cur ps_events ps_lexer a_last].
      * apply lay_app; [exact RL|]. repeat constructor.
      * exact I.
      * rewrite total_app, fleaves_app. exact X.
      * rewrite total_app. apply Forall_app. split; [exact RO|]. repeat constructor.
    + apply bind_panic in E as [E|(y & _ & E)]; [|discriminate]. exact (bump_soft _ _ _ E).
    + exact I.
  - (* error *)
    cbn [step] in HK. cbn [outcome]. eexists. split; [|apply HK].
    constructor; cbn [a_stack a_kids a_cur push_event ps_events ps_lexer set_kids a_last].
    + apply lay_app; [exact RL|]. repeat constructor.
    + exact I.
    + rewrite total_app, fleaves_app. cbn [fleaves flat_map leaves app]. rewrite app_nil_r. exact RX.
    + rewrite total_app. apply Forall_app. split; [exact RO|]. repeat constructor.
  - (* complete *)
    cbn [step] in HK. destruct (a_stack st) as [|o stk] eqn:Es; [destruct HK|].
    destruct HK as (<- & Hk & Hn & HK).
    destruct (lay_pos _ _ _ _ RL) as (fp & E & ->). unfold exec_complete. rewrite E. cbn [outcome].
    destruct (lay_complete _ _ _ _ k RL Hk) as (evs0 & n & off & E2 & L0 & C & Ep).
    eexists. split; [|apply HK].
    constructor; cbn [a_stack a_kids a_cur with_events ps_events ps_lexer a_last].
    + rewrite E2. apply lay_app; [exact L0|]. rewrite <- (app_nil_r n). eapply den_node; [exact C|constructor].
    + unfold last_ok. cbn [a_last a_kids a_stack]. rewrite E2. do 5 eexists.
      split; [reflexivity|]. split; [reflexivity|]. split; [exact L0|]. split; [exact C|].
      cbn [cm_start]. exact Ep.
    + cbn [total] in RX. erewrite total_leaves; [exact RX|].
      rewrite !fleaves_app. cbn [fleaves flat_map leaves]. rewrite app_nil_r.
      fold fleaves. rewrite flat_map_app. reflexivity.
    + cbn [total] in RO. rewrite total_ok in RO |- *. destruct RO as [R1 R2]. split; [exact R1|].
      apply Forall_app in R2 as [R2 R3]. apply Forall_app. split; [exact R2|].
      constructor; [|constructor]. cbn [tree_ok]. split; [exact Hk|]. split; [exact Hn|]. apply all_forest. exact R3.
  - (* abandon *)
    cbn [step] in HK. destruct (a_stack st) as [|o stk] eqn:Es; [destruct HK|].
    destruct HK as (<- & Hf & HK).
    assert (RX' : lex_ok t (ps_lexer s) (a_cur st) (fleaves (total stk (o_before o ++ a_kids st)))).
    { cbn [total] in RX. rewrite Hf in RX. cbn [opt_tree app] in RX. exact RX. }
    assert (RO' : Forall tree_ok (total stk (o_before o ++ a_kids st))).
    { cbn [total] in RO. rewrite Hf in RO. cbn [opt_tree app] in RO. exact RO. }
    pose proof (lay_pos _ _ _ _ RL) as (fp & E & ->).
    unfold exec_abandon. destruct (Nat.eqb (S (o_pos o)) (length (ps_events s))) eqn:El.
    + rewrite E. cbn [bind outcome]. eexists. split; [|apply HK].
      inversion RL as [|evs0 ? f0 seg ? L D Ee|evs0 ? f0 n off k0 tt0 seg ? L C E0 D Ee]; subst; cbn [o_pos o_first o_before] in *; [|discriminate].
      assert (seg = []).
      { apply Nat.eqb_eq in El. rewrite <- Ee in El. rewrite app_length in El. cbn [length] in El.
        destruct seg; [reflexivity|cbn in El; lia]. }
      subst seg. constructor; cbn [a_stack a_kids a_cur with_events ps_events ps_lexer a_last].
      * rewrite removelast_last. inversion D as [Z| | | |n ? ? ? ? C Z Z1]; subst.
        -- rewrite app_nil_r. exact L.
        -- apply app_eq_nil in Z1 as [-> ->]. destruct (chain_at _ _ _ _ C) as [Z2 _]. cbn in Z2. lia.
      * exact I.
      * exact RX'.
      * exact RO'.
    + cbn [bind outcome]. eexists. split; [|apply HK].
      constructor; cbn [a_stack a_kids a_cur with_events ps_events ps_lexer a_last].
      * inversion RL as [|evs0 ? f0 seg ? L D Ee|evs0 ? f0 n off k0 tt0 seg ? L C E0 D Ee]; subst; cbn [o_first o_before] in *; [|discriminate].
        apply lay_app; [exact L|]. apply den_tomb. exact D.
      * exact I.
      * exact RX'.
      * exact RO'.
  - (* precede *)
    cbn [step] in HK. destruct HK as (Hl & f0 & tr & Ek & HK).
    unfold last_ok in RLa. rewrite Hl in RLa.
    destruct RLa as (evs0 & n & tr' & off & f0' & Ee & Ek' & L0 & C & Ec).
    rewrite Ek in Ek'. apply app_inj_tail in Ek' as [<- <-].
    destruct (chain_at _ _ _ _ C) as [Ho [k Hk]].
    unfold exec_precede. cbn [exec_start push_event ps_events].
    rewrite Ee, Ec. rewrite <- app_assoc, nth_error_app_r, nth_error_app1, Hk by exact Ho.
    rewrite app_length.
    destruct (Nat.leb (length evs0 + off) (length evs0 + length n)) eqn:El; [|lia].
    cbn [bind outcome]. eexists. split; [|apply HK].
    rewrite set_nth_app_r, set_nth_app_l by exact Ho.
    replace (length evs0 + length n - (length evs0 + off))%nat with (length n - off)%nat by lia.
    constructor; cbn [a_stack a_kids a_cur with_events ps_events ps_lexer a_last].
    + change [tombstone] with (tombstone :: []). eapply lay_precede; eauto. constructor.
    + exact I.
    + cbn [total o_before o_first opt_tree app]. rewrite <- Ek. exact RX.
    + cbn [total o_before o_first opt_tree app]. rewrite <- Ek. exact RO.
  - (* assert *)
    destruct b; cbn [assert_ bind outcome]; [|left; reflexivity].
    exists st. split; [constructor; auto|]. apply HK. reflexivity.
Qed.

Lemma interp_sound t rec :
  (forall f s st, rel t s st -> pre f st -> outcome t (post f st) (rec f s)) ->
  forall A (p : prog A) s st Q, rel t s st -> wp p Q st -> outcome t Q (interp rec p s).
Proof.
  intros HR A p. induction p as [a|B c k IH|f k IH]; intros s st Q R W; cbn [interp wp] in *.
  - cbn [outcome]. eauto.
  - pose proof (exec_sound t c s st _ R W) as E. destruct (exec c s) as [[b s']|w|]; cbn [bind outcome] in *; auto.
    destruct E as (st' & R' & W'). exact (IH b s' st' Q R' W').
  - destruct W as [Hp W]. pose proof (HR f s st R Hp) as E.
    destruct (rec f s) as [[b s']|w|]; cbn [bind outcome] in *; auto.
    destruct E as (st' & R' & W'). exact (IH b s' st' Q R' (W _ _ W')).
Qed.

Lemma run_sound t : (forall f st, pre f st -> wp (body f) (post f st) st) ->
  forall fuel f s st, rel t s st -> pre f st -> outcome t (post f st) (run fuel f s).
Proof.
  intros HB fuel. induction fuel as [|fuel IH]; intros f s st R P; cbn [run]; [exact I|].
  apply (interp_sound t (run fuel) IH _ _ _ _ _ R). apply HB. exact P.
Qed.
