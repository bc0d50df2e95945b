(** Two files that begin with the same tokens get the same messages there. *)
From Coq Require Import String.
From Verif Require Import Base BaseProofs Kinds KindsProofs LexSpec Lexer LexerRuns LexerProofs LexerStateProofs
  Parser Grammar Sink TreeSpec GreenSpec ParserLogic GrammarProofs ProcessProofs SinkProofs TermProofs ParseProofs
  ParserTotal AcceptTop SyntaxSpec ShapeSpec ShapeProofs LayoutSpec LayoutProofs GapTop BeforeProofs SharedSpec.
Local Open Scope N_scope.

(** ** Tokens and messages among the events *)
Definition telling (e : event) : bool := match e with EToken _ _ | EError _ => true | _ => false end.
Definition sig (evs : list event) : list event := filter telling evs.
Definition taken (evs : list event) : nat := length (filter (fun e => match e with EToken _ _ => true | _ => false end) evs).
Lemma sig_app a b : sig (a ++ b) = sig a ++ sig b.
Proof. apply filter_app. Qed.
Lemma taken_app a b : taken (a ++ b) = (taken a + taken b)%nat.
Proof. unfold taken. rewrite filter_app, app_length. reflexivity. Qed.
Lemma taken_sig evs : taken (sig evs) = taken evs.
Proof.
  unfold taken, sig. induction evs as [|e evs IH]; [reflexivity|]. destruct e; cbn [filter telling length]; auto.
Qed.
Lemma sig_set m k fp k' fp' evs : nth_error evs m = Some (EStart k fp) -> sig (set_nth evs m (EStart k' fp')) = sig evs.
Proof.
  revert m. induction evs as [|e evs IH]; intros [|m] H; try discriminate H; cbn [nth_error set_nth] in *.
  - injection H as ->. reflexivity.
  - unfold sig in *. cbn [filter]. rewrite (IH m H). reflexivity.
Qed.
Lemma sig_last m k fp evs : S m = length evs -> nth_error evs m = Some (EStart k fp) -> sig (removelast evs) = sig evs.
Proof.
  intros L H. destruct (exists_last (l := evs)) as (a & x & ->); [intros ->; discriminate L|].
  rewrite removelast_last, sig_app. rewrite app_length in L. cbn in L.
  rewrite nth_error_app2 in H by lia. replace (m - length a)%nat with 0%nat in H by lia. injection H as ->.
  cbn. rewrite app_nil_r. reflexivity.
Qed.

(** ** Events only grow *)
Definition more (s s' : pstate) : Prop := exists new, sig (ps_events s') = sig (ps_events s) ++ new.
Lemma more_refl s : more s s.
Proof. exists []. rewrite app_nil_r. reflexivity. Qed.
Lemma more_same s s' : sig (ps_events s') = sig (ps_events s) -> more s s'.
Proof. intros E. exists []. rewrite app_nil_r. exact E. Qed.
Lemma more_trans a b c : more a b -> more b c -> more a c.
Proof. intros [x X] [y Y]. exists (x ++ y). rewrite Y, X, app_assoc. reflexivity. Qed.
Lemma exec_more {B} (c : cmd B) s b s' : exec c s = Ok (b, s') -> more s s'.
Proof.
  destruct c as [n| | | |k|msg|m k|m|c|bb]; cbn [exec]; intros H.
  - unfold exec_nth in H. apply bind_ok in H as (? & _ & H). apply bind_ok in H as (? & _ & H). apply bind_ok in H as (? & _ & H).
    injection H as _ <-. apply more_same. reflexivity.
  - injection H as _ <-. apply more_refl.
  - apply bind_ok in H as (? & _ & H). injection H as _ <-. apply more_refl.
  - injection H as _ <-. exists []. cbn [push_event ps_events]. rewrite sig_app. reflexivity.
  - apply bind_ok in H as (s1 & H1 & H). injection H as _ <-. unfold exec_do_bump in H1. apply bind_ok in H1 as (lx & _ & H1).
    injection H1 as <-. eexists. cbn [ps_events]. rewrite sig_app. reflexivity.
  - injection H as _ <-. eexists. cbn [push_event ps_events]. rewrite sig_app. reflexivity.
  - unfold exec_complete in H. destruct (nth_error (ps_events s) m) as [[kk fp| | |]|] eqn:N; try discriminate H. injection H as _ <-.
    exists []. cbn [with_events ps_events]. rewrite sig_app, (sig_set _ _ _ _ _ _ N). reflexivity.
  - apply bind_ok in H as (s1 & H1 & H). injection H as _ <-. unfold exec_abandon in H1. destruct (Nat.eqb _ _) eqn:E.
    + apply Nat.eqb_eq in E. destruct (nth_error (ps_events s) m) as [[[] [?|]| | |]|] eqn:N; try discriminate H1. injection H1 as <-.
      apply more_same. cbn [with_events ps_events]. eapply sig_last; eassumption.
    + injection H1 as <-. apply more_refl.
  - unfold exec_precede, exec_start in H. cbn [fst snd] in H. destruct (nth_error (ps_events (push_event s tombstone)) (cm_start c)) as [[kk fp| | |]|] eqn:N; try discriminate H.
    apply bind_ok in H as (d & _ & H). injection H as _ <-. exists []. cbn [with_events ps_events]. rewrite (sig_set _ _ _ _ _ _ N).
    cbn [push_event ps_events]. rewrite sig_app. reflexivity.
  - apply bind_ok in H as (? & _ & H). injection H as _ <-. apply more_refl.
Qed.
Lemma interp_grows (r : forall f, pstate -> res (fn_ret f * pstate)) : (forall f s a s', r f s = Ok (a, s') -> more s s') ->
  forall A (p : prog A) s a s', interp r p s = Ok (a, s') -> more s s'.
Proof.
  intros H A p. induction p as [a|B c k IH|f k IH]; intros s x s' E; cbn [interp] in E.
  - injection E as _ <-. apply more_refl.
  - apply bind_ok in E as ([b s1] & E1 & E). eapply more_trans; [eapply exec_more; exact E1|eapply IH; exact E].
  - apply bind_ok in E as ([b s1] & E1 & E). eapply more_trans; [eapply H; exact E1|eapply IH; exact E].
Qed.
Lemma run_grows n : forall f s a s', run n f s = Ok (a, s') -> more s s'.
Proof.
  induction n as [|n IH]; intros f s a s' E; [discriminate E|]. cbn [run] in E. eapply interp_grows; [exact IH|exact E].
Qed.

(** ** Two runs that see the same tokens *)
Section Zone.
  (** the tokens both files begin with *)
  Variable a : list pc.
  Definition lead : nat := match a with p :: _ => if is_trivia (fst p) then 1 else 0 | [] => 0 end%nat.
  Notation T := (length (proper a)).

  (** [c] is what remains of them *)
  Record zone (c : list pc) (s s' : pstate) : Prop := {
    z_left : exists r k, lside (ps_lexer s) (c ++ r) k;
    z_right : exists r k, lside (ps_lexer s') (c ++ r) k;
    z_events : ps_events s' = ps_events s;
    z_steps : ps_steps s' = ps_steps s;
    z_long : (3 <= length (proper c))%nat;
    z_count : taken (ps_events s) = 0%nat /\ c = a \/
              (taken (ps_events s) + length (proper c) = T + lead)%nat /\ is_trivia (cur_kind c) = false
  }.
  (** the runs have gone over the tokens they share, but for two *)
  Definition past_zone (s s' : pstate) : Prop :=
    exists com x x', sig (ps_events s) = com ++ x /\ sig (ps_events s') = com ++ x' /\
      (T + lead <= taken com + 2)%nat.
  Definition meets {A} (r r' : res (A * pstate)) : Prop :=
    forall b s b' s', r = Ok (b, s) -> r' = Ok (b', s') -> (b = b' /\ exists c, zone c s s') \/ past_zone s s'.

  Lemma past_more s s' s1 s1' : past_zone s s' -> more s s1 -> more s' s1' -> past_zone s1 s1'.
  Proof.
    intros (com & x & x' & E & E' & L) [n N] [n' N']. exists com, (x ++ n), (x' ++ n').
    rewrite N, E, N', E', !app_assoc. auto.
  Qed.

  Lemma cur_of lx rem k : lside lx rem k -> k = cur_kind rem.
  Proof. intros [(t & ws & rest & len & I & S) _]. exact (find_cur _ _ _ _ S (li_cur _ _ _ _ _ _ I)). Qed.
  Lemma cur_common c r : (3 <= length (proper c))%nat -> cur_kind (c ++ r) = cur_kind c.
  Proof. destruct c; [cbn; lia|reflexivity]. Qed.
  Lemma seen_common c r : proper c <> [] -> next_seen (c ++ r) = next_seen c.
  Proof.
    induction c as [|p c IH]; intros H; [contradiction|]. cbn [app next_seen]. destruct (kind_eqb (fst p) WHITESPACE) eqn:E; [|reflexivity].
    apply IH. cbn [proper filter] in H. apply kind_eqb_eq in E. rewrite E in H. exact H.
  Qed.
  Lemma second_common c r : (2 <= length (proper c))%nat -> second_raw (c ++ r) = second_raw c.
  Proof.
    destruct c as [|p [|q c]]; [cbn; lia| |reflexivity]. cbn [proper filter]. destruct (negb _); cbn; lia.
  Qed.
  Lemma tl_common c r : (3 <= length (proper c))%nat -> tl (c ++ r) = tl c ++ r /\ (2 <= length (proper (tl c)))%nat.
  Proof.
    destruct c as [|p c]; [cbn; lia|]. cbn [app tl proper filter]. intros H. split; [reflexivity|].
    unfold proper in *. destruct (negb _) in H; cbn [length] in H; lia.
  Qed.

  (** what the parser can see is the same *)
  Lemma sees lx lx' c r k r' k' n : (3 <= length (proper c))%nat -> lside lx (c ++ r) k -> lside lx' (c ++ r') k' ->
    match lx_lookahead_nth lx n, lx_lookahead_nth lx' n with
    | Ok x, Ok y => t_kind x = t_kind y
    | Panic w, Panic w' => w = w'
    | _, _ => False
    end.
  Proof.
    intros L S S'. destruct (tl_common c r L) as [T1 T2]. destruct (tl_common c r' L) as [T1' _].
    assert (Np : proper (tl c) <> []) by (intros X; rewrite X in T2; cbn in T2; lia).
    destruct n as [|[|[|n]]].
    - cbn [lx_lookahead_nth]. rewrite (cur_side _ _ _ S), (cur_side _ _ _ S'), (cur_of _ _ _ S), (cur_of _ _ _ S'), !cur_common by exact L. reflexivity.
    - destruct (look1_side _ _ _ S) as (x & -> & X). destruct (look1_side _ _ _ S') as (y & -> & Y).
      rewrite X, Y, T1, T1', !seen_common by exact Np. reflexivity.
    - destruct (look2_side _ _ _ S) as (x & -> & X). destruct (look2_side _ _ _ S') as (y & -> & Y).
      rewrite X, Y, T1, T1', !second_common by exact T2. reflexivity.
    - reflexivity.
  Qed.

  (** the same blanks, then a token *)
  Lemma same_blanks c r tr rem tr' r' rem' : (1 <= length (proper c))%nat -> c ++ r = tr ++ rem -> c ++ r' = tr' ++ rem' ->
    Forall trivia_piece tr -> Forall trivia_piece tr' -> is_trivia (cur_kind rem) = false -> is_trivia (cur_kind rem') = false ->
    exists c1, rem = c1 ++ r /\ rem' = c1 ++ r' /\ proper c1 = proper c.
  Proof.
    intros L E E' F F' K K'. revert tr tr' E E' F F'. induction c as [|p c IH]; intros tr tr' E E' F F'; [cbn in L; lia|].
    destruct (is_trivia (fst p)) eqn:Tp.
    - destruct tr as [|q tr]; [cbn [app] in E; subst rem; cbn [cur_kind] in K; congruence|].
      destruct tr' as [|q' tr']; [cbn [app] in E'; subst rem'; cbn [cur_kind] in K'; congruence|].
      injection E as -> E. injection E' as -> E'. inversion F; subst. inversion F'; subst.
      destruct (IH ltac:(cbn [proper filter] in L; rewrite Tp in L; exact L) tr tr' E E') as (c1 & -> & -> & P); auto.
      exists c1. split; [reflexivity|]. split; [reflexivity|]. cbn [proper filter]. rewrite Tp. exact P.
    - assert (tr = []). { destruct tr as [|q tr]; [reflexivity|]. injection E as -> _. inversion F; subst. unfold trivia_piece in *. congruence. }
      assert (tr' = []). { destruct tr' as [|q tr']; [reflexivity|]. injection E' as -> _. inversion F'; subst. unfold trivia_piece in *. congruence. }
      subst tr tr'. exists (p :: c). auto.
  Qed.

  Lemma zone_push c s s' e : telling e = false -> zone c s s' -> zone c (push_event s e) (push_event s' e).
  Proof.
    intros Te [L R E St Lg Ct]. constructor; cbn [push_event ps_lexer ps_events ps_steps]; auto; [congruence|].
    rewrite taken_app. replace (taken [e]) with 0%nat by (destruct e; cbn in *; congruence). rewrite Nat.add_0_r. exact Ct.
  Qed.
  Lemma zone_events c s s' es : zone c s s' -> taken es = taken (ps_events s) -> zone c (with_events s es) (with_events s' es).
  Proof.
    intros [L R E St Lg Ct] X. constructor; cbn [with_events ps_lexer ps_events ps_steps]; auto. rewrite X. exact Ct.
  Qed.
  Lemma taken_set m k fp k' fp' evs : nth_error evs m = Some (EStart k fp) -> taken (set_nth evs m (EStart k' fp')) = taken evs.
  Proof. intros N. rewrite <- (taken_sig (set_nth _ _ _)), (sig_set _ _ _ _ _ _ N). apply taken_sig. Qed.

  Lemma exec_meets {B} (cm : cmd B) c s s' : zone c s s' -> meets (exec cm s) (exec cm s').
  Proof.
    intros Z b s1 b' s1' H H'. pose proof Z as [(r & k & L) (r' & k' & L') E St Lg Ct].
    destruct cm as [n| | | |kk|msg|m kk|m|cc|bb]; cbn [exec] in H, H'.
    - left. unfold exec_nth in *. rewrite St in H'. destruct (assert_ (Nat.leb n 3)); try discriminate H; cbn [bind] in *.
      destruct (assert_ _); try discriminate H; cbn [bind] in *.
      pose proof (sees _ _ _ _ _ _ _ n Lg L L') as X.
      destruct (lx_lookahead_nth (ps_lexer s) n); try discriminate H; destruct (lx_lookahead_nth (ps_lexer s') n); try discriminate H'.
      cbn [bind] in *. injection H as <- <-. injection H' as <- <-. split; [exact X|]. exists c.
      constructor; cbn [ps_lexer ps_events ps_steps]; eauto.
    - left. injection H as <- <-. injection H' as <- <-. split; [|eauto].
      rewrite (cur_side _ _ _ L), (cur_side _ _ _ L'), (cur_of _ _ _ L), (cur_of _ _ _ L'), !cur_common by exact Lg. reflexivity.
    - left. rewrite (text_side _ _ _ L) in H. rewrite (text_side _ _ _ L') in H'. cbn [bind] in *. injection H as <- <-. injection H' as <- <-.
      split; [|eauto]. destruct c; [cbn in Lg; lia|reflexivity].
    - left. injection H as <- <-. injection H' as <- <-. rewrite E. split; [reflexivity|]. exists c. apply zone_push; auto.
    - apply bind_ok in H as (s2 & H2 & H). injection H as <- <-. apply bind_ok in H' as (s2' & H2' & H'). injection H' as <- <-.
      unfold exec_do_bump in *. destruct (bump_one _ _ _ L) as (lx & rem1 & Bm & Sd & K & C). destruct (bump_one _ _ _ L') as (lx' & rem1' & Bm' & Sd' & K' & C').
      rewrite Bm in H2. rewrite Bm' in H2'. cbn [bind] in *. injection H2 as <-. injection H2' as <-.
      destruct c as [|p c]; [cbn in Lg; lia|]. destruct C as [(X & _)|(w & tr & C & F)]; [discriminate X|].
      destruct C' as [(X & _)|(w' & tr' & C' & F')]; [discriminate X|]. cbn [app] in C, C'. injection C as Ep C. injection C' as Ep' C'.
      assert (Lc : (2 <= length (proper c))%nat) by (cbn [proper filter] in Lg; unfold proper; destruct (negb _) in Lg; cbn [length] in Lg; lia).
      destruct (same_blanks c r tr rem1 tr' r' rem1' ltac:(lia) C C' F F' K K') as (c1 & -> & -> & P1).
      assert (Ct1 : (taken (ps_events s ++ [EToken kk 1]) + length (proper c1) = T + lead)%nat).
      { rewrite taken_app, P1. change (taken [EToken kk 1]) with 1%nat. destruct Ct as [[Ct Ca]|[Ct Cc]].
        - rewrite Ct. unfold lead. rewrite <- Ca. cbn [proper filter]. destruct (is_trivia (fst p)); cbn [negb length]; unfold proper; lia.
        - cbn [proper filter] in Ct. cbn [cur_kind] in Cc. rewrite Cc in Ct. cbn [negb length] in Ct. unfold proper in *. lia. }
      destruct (le_lt_dec 3 (length (proper c1))) as [G|G].
      + left. split; [reflexivity|]. exists c1. constructor; cbn [ps_lexer ps_events ps_steps]; eauto; [congruence|].
        right. split; [exact Ct1|]. rewrite cur_common in K by exact G. exact K.
      + right. exists (sig (ps_events s ++ [EToken kk 1])), [], []. cbn [ps_events]. rewrite !app_nil_r, E. split; [reflexivity|]. split; [reflexivity|].
        rewrite taken_sig. lia.
    - left. injection H as <- <-. injection H' as <- <-. split; [reflexivity|]. exists c.
      constructor; cbn [push_event ps_lexer ps_events ps_steps]; eauto; [congruence|]. rewrite taken_app. cbn. rewrite Nat.add_0_r. exact Ct.
    - left. unfold exec_complete in *. rewrite E in H'. destruct (nth_error (ps_events s) m) as [[k0 fp| | |]|] eqn:N; try discriminate H.
      injection H as <- <-. injection H' as <- <-. split; [reflexivity|]. exists c. apply zone_events; [exact Z|].
      rewrite taken_app, (taken_set _ _ _ _ _ _ N). cbn. lia.
    - left. apply bind_ok in H as (s2 & H2 & H). injection H as <- <-. apply bind_ok in H' as (s2' & H2' & H'). injection H' as <- <-.
      split; [reflexivity|]. exists c. unfold exec_abandon in *. rewrite E in H2'. destruct (Nat.eqb _ _) eqn:Q.
      + apply Nat.eqb_eq in Q. destruct (nth_error (ps_events s) m) as [[[] [?|]| | |]|] eqn:N; try discriminate H2.
        injection H2 as <-. injection H2' as <-. apply zone_events; [exact Z|]. rewrite <- taken_sig, (sig_last _ _ _ _ Q N). apply taken_sig.
      + injection H2 as <-. injection H2' as <-. exact Z.
    - left. unfold exec_precede, exec_start in *. cbn [fst snd push_event ps_events] in *. rewrite E in H'.
      destruct (nth_error (ps_events s ++ [tombstone]) (cm_start cc)) as [[k0 fp| | |]|] eqn:N; try discriminate H.
      apply bind_ok in H as (d & D & H). apply bind_ok in H' as (d' & D' & H'). rewrite D in D'. injection D' as <-.
      injection H as <- <-. injection H' as <- <-. split; [reflexivity|]. exists c.
      apply (zone_events c (push_event s tombstone) (push_event s' tombstone)); [apply zone_push; auto|].
      cbn [push_event ps_events]. apply (taken_set _ _ _ _ _ _ N).
    - left. destruct (assert_ bb); try discriminate H. injection H as <- <-. injection H' as <- <-. eauto.
  Qed.

  Lemma interp_meets (r r' : forall f, pstate -> res (fn_ret f * pstate)) :
    (forall f c s s', zone c s s' -> meets (r f s) (r' f s')) ->
    (forall f s a s', r f s = Ok (a, s') -> more s s') -> (forall f s a s', r' f s = Ok (a, s') -> more s s') ->
    forall A (p : prog A) c s s', zone c s s' -> meets (interp r p s) (interp r' p s').
  Proof.
    intros H G G' A p. induction p as [x|B cm k IH|f k IH]; intros c s s' Z b s1 b' s1' E E'; cbn [interp] in *.
    - injection E as <- <-. injection E' as <- <-. eauto.
    - apply bind_ok in E as ([y s2] & E1 & E). apply bind_ok in E' as ([y' s2'] & E1' & E').
      destruct (exec_meets cm c s s' Z _ _ _ _ E1 E1') as [[<- (c2 & Z2)]|P].
      + exact (IH y c2 _ _ Z2 _ _ _ _ E E').
      + right. eapply past_more; [exact P|eapply interp_grows; [exact G|exact E]|eapply interp_grows; [exact G'|exact E']].
    - apply bind_ok in E as ([y s2] & E1 & E). apply bind_ok in E' as ([y' s2'] & E1' & E').
      destruct (H f c s s' Z _ _ _ _ E1 E1') as [[<- (c2 & Z2)]|P].
      + exact (IH y c2 _ _ Z2 _ _ _ _ E E').
      + right. eapply past_more; [exact P|eapply interp_grows; [exact G|exact E]|eapply interp_grows; [exact G'|exact E']].
  Qed.
  Lemma run_meets n : forall f c s s', zone c s s' -> meets (run n f s) (run n f s').
  Proof.
    induction n as [|n IH]; intros f c s s' Z; [intros b s1 b' s1' E; discriminate E|]. cbn [run].
    eapply interp_meets; [exact IH|apply run_grows|apply run_grows|exact Z].
  Qed.
End Zone.

(** ** The messages of the tree are those of the events *)
Definition solids (evs : list event) : nat :=
  length (filter (fun e => match e with EToken k _ => negb (is_trivia k) | _ => false end) evs).
Lemma solids_app a b : solids (a ++ b) = (solids a + solids b)%nat.
Proof. unfold solids. rewrite filter_app, app_length. reflexivity. Qed.
Fixpoint heard (n : nat) (evs : list event) : list (text * nat) :=
  match evs with
  | [] => []
  | EToken k _ :: r => heard (n + if is_trivia k then 0 else 1) r
  | EError m :: r => (m, n) :: heard n r
  | _ :: r => heard n r
  end.
Lemma heard_app a : forall n b, heard n (a ++ b) = heard n a ++ heard (n + solids a) b.
Proof.
  induction a as [|e a IH]; intros n b; cbn [app heard].
  - cbn. rewrite Nat.add_0_r. reflexivity.
  - destruct e as [k fp| |k m|m]; rewrite ?IH; cbn [app]; try reflexivity.
    f_equal. f_equal. unfold solids. cbn [filter]. destruct (is_trivia k); cbn [negb length]; lia.
Qed.
Lemma heard_sig evs : forall n, heard n (sig evs) = heard n evs.
Proof. unfold sig. induction evs as [|e evs IH]; intros n; [reflexivity|]. destruct e; cbn [filter telling heard]; rewrite ?IH; reflexivity. Qed.
Lemma solid_app f g : length (solid_leaves (f ++ g)) = (length (solid_leaves f) + length (solid_leaves g))%nat.
Proof. unfold solid_leaves. rewrite flat_map_app, filter_app, app_length. reflexivity. Qed.
Lemma solid_node k f : solid_leaves [TNode k f] = solid_leaves f.
Proof. unfold solid_leaves. cbn [flat_map leaves]. rewrite app_nil_r. reflexivity. Qed.
Lemma den_heard evs f : den evs f -> length (solid_leaves f) = solids evs /\ forall n, noted n f = heard n evs.
Proof.
  revert evs f. apply (den_mut
    (fun evs f => length (solid_leaves f) = solids evs /\ forall n, noted n f = heard n evs)
    (fun i seg t off => length (solid_leaves [t]) = (length (solid_leaves (opt_tree i)) + solids seg)%nat /\
       forall n, noted1 n t = noted n (opt_tree i) ++ heard (n + length (solid_leaves (opt_tree i))) seg)).
  - split; reflexivity.
  - intros k s f _ [A B]. split.
    + unfold solid_leaves, solids in *. cbn [flat_map leaves app filter]. destruct (is_trivia k); cbn [negb length]; rewrite ?A; reflexivity.
    + intros n. cbn [noted noted1 app heard]. rewrite B. f_equal. unfold solid_leaves. cbn [flat_map leaves app filter]. destruct (is_trivia k); reflexivity.
  - intros m s f _ [A B]. split; [exact A|]. intros n. cbn [noted noted1 app heard]. rewrite B. do 2 f_equal. apply Nat.add_0_r.
  - intros s f _ [A B]. split; [exact A|]. exact B.
  - intros n t off s f _ [A B] _ [A' B']. change (t :: f) with ([t] ++ f). split; [rewrite solid_app, solids_app, A, A'; reflexivity|].
    intros j. rewrite noted_app, heard_app. cbn [noted]. rewrite app_nil_r, B, B', A. cbn [opt_tree noted app]. cbn [opt_tree] in *.
    rewrite ?Nat.add_0_r. reflexivity.
  - intros i k s f _ _ [A B]. rewrite solid_node, solid_app. unfold solids at 1. cbn [filter length]. fold (solids (s ++ [EFinish])). rewrite solids_app.
    split; [cbn; lia|]. intros n. rewrite noted1_node, noted_app, B. cbn [heard]. rewrite heard_app. cbn [heard]. rewrite app_nil_r. reflexivity.
  - intros i k s f seg t off _ _ [A B] _ [A' B']. cbn [opt_tree] in *. rewrite solid_node, solid_app in A', B'. split.
    + rewrite A'. unfold solids at 2. cbn [filter length]. fold (solids (s ++ EFinish :: seg)). rewrite solids_app, A. cbn. unfold solids. cbn. lia.
    + intros n. rewrite B'. cbn [noted]. rewrite noted1_node, app_nil_r, noted_app, B. cbn [heard]. rewrite heard_app. cbn [heard].
      rewrite <- app_assoc, A, Nat.add_assoc. reflexivity.
Qed.

Definition kinds (evs : list event) : list kind := flat_map (fun e => match e with EToken k _ => [k] | _ => [] end) evs.
Lemma kinds_app a b : kinds (a ++ b) = kinds a ++ kinds b.
Proof. apply flat_map_app. Qed.
Lemma kinds_sig evs : kinds (sig evs) = kinds evs.
Proof. unfold kinds, sig. induction evs as [|e evs IH]; [reflexivity|]. destruct e; cbn [filter telling flat_map app]; rewrite ?IH; reflexivity. Qed.
Lemma kinds_taken evs : length (kinds evs) = taken evs.
Proof. unfold kinds, taken. induction evs as [|e evs IH]; [reflexivity|]. destruct e; cbn [filter flat_map app length]; rewrite ?IH; reflexivity. Qed.
Lemma kinds_solids evs : length (filter (fun k => negb (is_trivia k)) (kinds evs)) = solids evs.
Proof.
  unfold kinds, solids. induction evs as [|e evs IH]; [reflexivity|]. destruct e; cbn [filter flat_map app]; auto.
  destruct (is_trivia k); cbn [negb length]; rewrite ?IH; reflexivity.
Qed.
Lemma den_kinds evs f : den evs f -> fleaves f = kinds evs.
Proof.
  revert evs f. apply (den_mut (fun evs f => fleaves f = kinds evs)
    (fun i seg t off => leaves t = fleaves (opt_tree i) ++ kinds seg)).
  - reflexivity.
  - intros k s f _ A. unfold fleaves, kinds in *. cbn [flat_map leaves app]. rewrite A. reflexivity.
  - intros m s f _ A. exact A.
  - intros s f _ A. exact A.
  - intros n t off s f _ A _ A'. rewrite kinds_app. unfold fleaves in *. cbn [flat_map opt_tree app] in *. rewrite A, A'. reflexivity.
  - intros i k s f _ _ A. unfold fleaves in *. cbn [leaves]. rewrite flat_map_app, A. unfold kinds. cbn [flat_map app]. rewrite flat_map_app. cbn [flat_map]. rewrite app_nil_r. reflexivity.
  - intros i k s f seg t off _ _ A _ A'. rewrite A'. unfold fleaves, kinds in *. cbn [opt_tree flat_map leaves app]. rewrite app_nil_r, flat_map_app, A, flat_map_app, <- app_assoc. reflexivity.
Qed.
Lemma solid_all ks : Forall (fun k => is_trivia k = false) ks -> length (filter (fun k => negb (is_trivia k)) ks) = length ks.
Proof. induction 1 as [|k ks H _ IH]; [reflexivity|]. cbn [filter]. rewrite H. cbn [negb length]. congruence. Qed.

(** ** Two files *)
Lemma spot_stands ws e m j : spot ws e (m, j) -> se_msg e = m /\ stands_after ws j e.
Proof. intros (M & u & v & E & P & C & _). split; [exact M|]. exists u, v. split; [exact E|]. split; [exact P|]. rewrite proper_count. exact C. Qed.
Lemma spots_early ws ws' ms : forall es es', Forall2 (spot ws) es ms -> Forall2 (spot ws') es' ms ->
  Forall2 (fun e e' => se_msg e = se_msg e' /\ exists i, stands_after ws i e /\ stands_after ws' i e') es es'.
Proof.
  induction ms as [|[m j] ms IH]; intros es es' H H'; inversion H; inversion H'; subst; constructor; [|auto].
  match goal with A : spot ws _ _, B : spot ws' _ _ |- _ => apply spot_stands in A as [A1 A2]; apply spot_stands in B as [B1 B2] end.
  split; [congruence|eauto].
Qed.
Lemma heard_from evs : forall n m j, In (m, j) (heard n evs) -> (n <= j)%nat.
Proof.
  induction evs as [|e evs IH]; intros n m j H; [destruct H|]. destruct e; cbn [heard] in H; eauto.
  - apply IH in H. destruct (is_trivia k); lia.
  - destruct H as [X|H]; [injection X as _ <-; lia|eauto].
Qed.
Lemma spots_late ws n evs es : Forall2 (spot ws) es (heard n evs) -> Forall (fun e => exists i, (n <= i)%nat /\ stands_after ws i e) es.
Proof.
  intros H. assert (G : forall m j, In (m, j) (heard n evs) -> (n <= j)%nat) by apply heard_from. revert G. induction H as [|e [m j] es ms S _ IH]; intros G; constructor.
  - exists j. split; [apply (G m); left; reflexivity|]. apply spot_stands in S. apply S.
  - apply IH. intros m' j' I. apply (G m'). right. exact I.
Qed.

(** one file: its events, and where its messages stand *)
Record told (t : text) (ws : list pc) (evs : list event) (errs : list syntax_error) : Prop := {
  to_spots : Forall2 (spot ws) errs (heard 0 evs);
  to_kinds : exists gs, ungroup gs = ws /\ Forall solid (tl gs) /\ Forall2 (fun g k => remap (fst (fst g)) k) gs (kinds evs)
}.
Lemma parse_told t ws g errs : tlen t < u32_bound -> token_stream t ws -> ascii_literals ws -> parse_text t = Ok (g, errs) ->
  exists lx n s, lexer_new t = Ok lx /\ steps t ws [] /\ Forall real ws /\
    (forall m, (n <= m)%nat -> exists u, interp (run m) root (parser_new lx) = Ok (u, s)) /\ told t ws (ps_events s) errs.
Proof.
  intros Hs Ts A PT. destruct (stream_steps' _ _ Ts A) as [S R].
  unfold parse_text in PT. apply bind_ok in PT as (lx & HL & PT). unfold parse_with_lexer in PT.
  pose proof (grammar_sound t lx (parse_fuel (lx_text lx)) HL) as GS. set (n := parse_fuel (lx_text lx)) in *.
  destruct (interp (run n) root (parser_new lx)) as [[u s]|w|] eqn:E; cbn [bind] in PT; try discriminate PT.
  destruct GS as (F & gs & P). destruct (build_ok _ _ _ _ _ Hs P) as (g' & errs' & B & O). rewrite B in PT. injection PT as -> ->.
  exists lx, n, s. split; [exact HL|]. split; [exact S|]. split; [exact R|]. split.
  - intros m L. exists u. eapply interp_le; eassumption.
  - assert (Ug : ungroup gs = ws).
    { eapply steps_same; [apply P|apply O|exact S|exact R]. }
    destruct (lexer_new_inv _ _ HL) as (k & len & I).
    assert (R0 : rel t (parser_new lx) (Ast k None [] [])).
    { constructor; cbn.
      - constructor. constructor.
      - exact Logic.I.
      - exists [], t, len. cbn. split; [exact I|]. split; [constructor|]. split; [constructor|]. split; [contradiction|constructor].
      - constructor. }
    destruct (root_no_error t _ _ _ _ _ R0 E) as (f2 & D2 & N2).
    pose proof (den_inj _ _ _ (p_den _ _ _ _ _ P) D2) as X. injection X as <-.
    destruct (den_heard _ _ D2) as [_ H]. specialize (H 0%nat). cbn [noted] in H. rewrite noted1_node, app_nil_r in H.
    constructor.
    + rewrite <- H, <- Ug. apply (ro_spots _ _ _ _ _ O). exact N2.
    + exists gs. split; [exact Ug|]. split; [apply P|]. rewrite <- (den_kinds _ _ D2). unfold fleaves. cbn [flat_map leaves].
      rewrite app_nil_r. apply P.
Qed.

Lemma remap_solid k0 k : remap k0 k -> is_trivia k0 = false -> is_trivia k = false.
Proof. intros [->|[-> ->]]; auto. Qed.
Lemma told_solids t a b evs errs com x : told t (a ++ b) evs errs -> a <> [] -> sig evs = com ++ x -> (taken com <= solids com + lead a)%nat.
Proof.
  intros [_ (gs & U & Sl & F)] Na E. rewrite <- kinds_sig, E, kinds_app in F. rewrite <- kinds_taken, <- kinds_solids.
  destruct gs as [|[p tr] gs]; [destruct a; [contradiction|discriminate U]|]. inversion F as [|? k0 ? ks R F1 Eg Ek]; subst. cbn [tl] in Sl.
  assert (Fk : Forall (fun k => is_trivia k = false) ks).
  { clear - F1 Sl. induction F1 as [|g k gs ks R _ IH]; [constructor|]. inversion Sl; subst. constructor; [|auto]. eapply remap_solid; [exact R|assumption]. }
  destruct (kinds com) as [|k1 kc]; [cbn; lia|]. cbn [app] in Ek. injection Ek as -> ->. apply Forall_app in Fk as [Fk _].
  cbn [filter length]. pose proof (solid_all _ Fk) as X. unfold lead. destruct a as [|q a]; [contradiction|]. rewrite ungroup_cons in U. injection U as -> _.
  cbn [fst] in R. destruct (is_trivia (fst q)) eqn:Tq.
  - destruct (is_trivia k1); cbn [negb length]; rewrite X; lia.
  - rewrite (remap_solid _ _ R Tq). cbn [negb length]. rewrite X. lia.
Qed.

Lemma shared_main t t' a b b' g errs g' errs' : tlen t < u32_bound -> tlen t' < u32_bound ->
  token_stream t (a ++ b) -> token_stream t' (a ++ b') -> ascii_literals (a ++ b) -> ascii_literals (a ++ b') ->
  parse_text t = Ok (g, errs) -> parse_text t' = Ok (g', errs') ->
  agree_before (a ++ b) (a ++ b') (length (proper a) - 2) errs errs'.
Proof.
  intros Hs Hs' Ts Ts' A A' PT PT'.
  destruct (parse_told _ _ _ _ Hs Ts A PT) as (lx & n & s & HL & S & R & I & To).
  destruct (parse_told _ _ _ _ Hs' Ts' A' PT') as (lx' & n' & s' & HL' & S' & R' & I' & To').
  destruct (le_lt_dec 3 (length (proper a))) as [L|L].
  2:{ exists [], [], errs, errs'. replace (length (proper a) - 2)%nat with 0%nat by lia. repeat split; [constructor| |].
      - eapply (spots_late _ 0). apply To.
      - eapply (spots_late _ 0). apply To'. }
  assert (Na : a <> []) by (intros ->; cbn in L; lia).
  assert (Z : zone a a (parser_new lx) (parser_new lx')).
  { destruct (lexer_new_inv _ _ HL) as (k & len & J). destruct (lexer_new_inv _ _ HL') as (k' & len' & J').
    constructor; cbn [parser_new ps_lexer ps_events ps_steps]; auto.
    - exists b, k. constructor; [|exact R]. exists t, [], t, len. auto.
    - exists b', k'. constructor; [|exact R']. exists t', [], t', len'. auto. }
  destruct (I (n + n')%nat ltac:(lia)) as [u E]. destruct (I' (n + n')%nat ltac:(lia)) as [u' E'].
  destruct (interp_meets a _ _ (run_meets a (n + n')) (run_grows (n + n')) (run_grows (n + n')) _ root a _ _ Z _ _ _ _ E E') as [[_ (c & Zc)]|(com & x & x' & C & C' & Lc)].
  - exists errs, errs', [], []. rewrite !app_nil_r. repeat split; [|constructor|constructor].
    eapply spots_early; [apply To|]. rewrite <- (z_events _ _ _ _ Zc). apply To'.
  - pose proof (to_spots _ _ _ _ To) as Sp. rewrite <- heard_sig, C, heard_app in Sp. apply Forall2_app_inv_r in Sp as (early & late & Sp1 & Sp2 & ->).
    pose proof (to_spots _ _ _ _ To') as Sp'. rewrite <- heard_sig, C', heard_app in Sp'. apply Forall2_app_inv_r in Sp' as (early' & late' & Sp1' & Sp2' & ->).
    exists early, early', late, late'. split; [reflexivity|]. split; [reflexivity|]. split; [eapply spots_early; eassumption|].
    pose proof (told_solids _ _ _ _ _ _ _ To Na C) as M. cbn [Nat.add] in *.
    assert (W : forall ws es, Forall (fun e => exists i, (solids com <= i)%nat /\ stands_after ws i e) es ->
      Forall (fun e => exists i, (length (proper a) - 2 <= i)%nat /\ stands_after ws i e) es).
    { intros ws es. apply Forall_impl. intros e (i & Li & Si). exists i. split; [lia|exact Si]. }
    split; apply W; eapply spots_late; eassumption.
Qed.
