(** Two files that begin with the same tokens get the same constructs there. *)
From Coq Require Import String.
From Verif Require Import Base BaseProofs Kinds KindsProofs LexSpec Lexer LexerRuns LexerProofs LexerStateProofs
  Parser Grammar Sink TreeSpec GreenSpec ParserLogic GrammarProofs ProcessProofs SinkProofs TermProofs ParseProofs
  ParserTotal AcceptTop SyntaxSpec ShapeSpec ShapeProofs LayoutSpec LayoutProofs GapTop BeforeProofs SharedSpec SharedProofs KeepSpec.
Local Open Scope N_scope.

(** ** How what is built changes *)
Inductive leaf : tree -> Prop := leaf_tok k : leaf (TTok k) | leaf_err m : leaf (TErr m).
Inductive evf (f : forest) : forest -> Prop :=
| evf_refl : evf f f
| evf_leaf g x : evf f g -> leaf x -> evf f (g ++ [x])
| evf_wrap g h k : evf f (g ++ h) -> evf f (g ++ [TNode k h]).
Lemma evf_trans f g h : evf f g -> evf g h -> evf f h.
Proof. intros A B. induction B as [|h x B IH L|h1 h2 k B IH]; [exact A|apply evf_leaf; auto|apply evf_wrap; auto]. Qed.
Lemma evf_eq f g : f = g -> evf f g.
Proof. intros ->. constructor. Qed.
Lemma fl_app a b : fleaves (a ++ b) = fleaves a ++ fleaves b.
Proof. apply flat_map_app. Qed.
Lemma fl_node k h : fleaves [TNode k h] = fleaves h.
Proof. unfold fleaves. cbn [flat_map leaves]. apply app_nil_r. Qed.
Lemma evf_leaves f g : evf f g -> exists r, fleaves g = fleaves f ++ r.
Proof.
  induction 1 as [|g x _ [r E] L|g h k _ [r E]].
  - exists []. rewrite app_nil_r. reflexivity.
  - exists (r ++ fleaves [x]). rewrite fl_app, E, app_assoc. reflexivity.
  - exists r. rewrite fl_app, fl_node, <- fl_app. exact E.
Qed.
Lemma strip_app a b : strip_forest (a ++ b) = strip_forest a ++ strip_forest b.
Proof. apply flat_map_app. Qed.
Lemma evf_strip f g : evf f g -> evf (strip_forest f) (strip_forest g).
Proof.
  induction 1 as [|g x _ IH L|g h k _ IH].
  - constructor.
  - rewrite strip_app. destruct L as [k|m]; cbn [strip_forest flat_map strip_tree app].
    + destruct (is_trivia k); [rewrite app_nil_r; exact IH|]. apply evf_leaf; [exact IH|constructor].
    + rewrite app_nil_r. exact IH.
  - rewrite strip_app in *. cbn [strip_forest flat_map strip_tree app]. apply evf_wrap. exact IH.
Qed.

Lemma sits_l n u f g : sits n u f -> sits n u (f ++ g).
Proof. induction 1; cbn [app]; [constructor|constructor; assumption|constructor; assumption]. Qed.
Lemma sits_r n u f g : sits n u g -> sits (length (fleaves f) + n) u (f ++ g).
Proof.
  intros H. induction f as [|v f IH]; [exact H|]. cbn [app]. unfold fleaves. cbn [flat_map]. rewrite app_length, <- Nat.add_assoc.
  apply sits_after. exact IH.
Qed.
Lemma sits_app n u f g : sits n u (f ++ g) -> sits n u f \/ exists m, n = (length (fleaves f) + m)%nat /\ sits m u g.
Proof.
  revert n. induction f as [|v f IH]; intros n H; cbn [app] in H.
  - right. exists n. split; [reflexivity|exact H].
  - inversion H as [? ?|? ? k c ? S|m ? ? ? S]; subst.
    + left. constructor.
    + left. constructor. exact S.
    + destruct (IH _ S) as [L|(j & -> & R)]; [left; constructor; exact L|]. right. exists j. split; [|exact R].
      unfold fleaves. cbn [flat_map]. rewrite app_length. lia.
Qed.
Lemma evf_keeps f g n u : evf f g -> sits n u f -> sits n u g.
Proof.
  intros H S. induction H as [|g x _ IH L|g h k _ IH]; [exact S|apply sits_l; exact IH|].
  apply sits_app in IH as [A|(m & -> & A)]; [apply sits_l; exact A|apply sits_r]. constructor. exact A.
Qed.
Lemma evf_new f g n u : evf f g -> sits n u g -> (n + length (leaves u) < length (fleaves f))%nat -> sits n u f.
Proof.
  intros H S Lt. induction H as [|g x H IH L|g h k H IH]; [exact S| |].
  - destruct (evf_leaves _ _ H) as [r E]. apply sits_app in S as [A|(m & -> & A)]; [auto|].
    exfalso. rewrite E, app_length in Lt. lia.
  - destruct (evf_leaves _ _ H) as [r E]. apply IH. apply sits_app in S as [A|(m & -> & A)]; [apply sits_l; exact A|].
    inversion A as [? ?|? ? ? ? ? S|? ? ? ? S]; subst.
    + exfalso. apply (f_equal (@length _)) in E. rewrite fl_app, !app_length in E. cbn [leaves] in Lt. unfold fleaves in *. lia.
    + apply sits_r. exact S.
    + inversion S.
Qed.
Lemma keeps_both f g g' n u : evf f g -> evf f g' -> (n + length (leaves u) < length (fleaves f))%nat -> sits n u g -> sits n u g'.
Proof. intros A B L S. eapply evf_keeps; [exact B|]. exact (evf_new _ _ _ _ A S L). Qed.

(** ** One command *)
Definition tot (st : ast) : forest := total (a_stack st) (a_kids st).
Definition det {B} (c : cmd B) (st : ast) : B -> ast -> Prop :=
  match c in cmd B return B -> ast -> Prop with
  | CStart => fun m st' => st' = Ast (a_cur st) None [] (Open m None (a_kids st) :: a_stack st)
  | CDoBump k => fun _ st' => st' = Ast (a_cur st') None (a_kids st ++ [TTok k]) (a_stack st)
  | CError msg => fun _ st' => st' = set_kids st (a_kids st ++ [TErr msg])
  | CComplete m k => fun c st' => exists o stk, a_stack st = o :: stk /\
      st' = Ast (a_cur st) (Some c) (o_before o ++ [TNode k (opt_tree (o_first o) ++ a_kids st)]) stk
  | CAbandon m => fun _ st' => exists o stk, a_stack st = o :: stk /\ o_first o = None /\ st' = Ast (a_cur st) None (o_before o ++ a_kids st) stk
  | CPrecede c => fun m st' => exists f0 t, a_kids st = f0 ++ [t] /\ st' = Ast (a_cur st) None [] (Open m (Some t) f0 :: a_stack st)
  | _ => fun _ st' => st' = st
  end.
Lemma step_det {B} (c : cmd B) st (K : B -> ast -> Prop) : step c st K -> step c st (fun b st' => K b st' /\ det c st b st').
Proof.
  destruct c as [[|n]| | | |k|msg|m k|m|c|b]; cbn [step det]; try (intros H; intros; split; [apply H; assumption|reflexivity]); auto.
  - intros (A & D & H). split; [exact A|]. split; [exact D|]. intros. split; [apply H; assumption|reflexivity].
  - destruct (a_stack st) as [|o stk] eqn:E; [auto|]. intros (A & D & F & H). split; [exact A|]. split; [exact D|]. split; [exact F|].
    intros. split; [apply H|]. exists o, stk. auto.
  - destruct (a_stack st) as [|o stk] eqn:E; [auto|]. intros (A & D & H). split; [exact A|]. split; [exact D|].
    split; [apply H|]. exists o, stk. auto.
  - intros (A & f0 & t & E & H). split; [exact A|]. exists f0, t. split; [exact E|]. intros. split; [apply H|]. exists f0, t. auto.
Qed.
Lemma det_same {B} (c : cmd B) st b x y : det c st b x -> det c st b y -> a_cur x = a_cur y -> x = y.
Proof.
  destruct c as [[|n]| | | |k|msg|m k|m|c|bb]; cbn [det]; intros X Y E; try congruence.
  - destruct X as (o & stk & A & ->), Y as (o' & stk' & A' & ->). rewrite A in A'. injection A' as <- <-. reflexivity.
  - destruct X as (o & stk & A & _ & ->), Y as (o' & stk' & A' & _ & ->). rewrite A in A'. injection A' as <- <-. reflexivity.
  - destruct X as (f0 & t & A & ->), Y as (f0' & t' & A' & ->). rewrite A in A'. apply app_inj_tail in A' as [<- <-]. reflexivity.
Qed.
Lemma det_tot {B} (c : cmd B) st b b' x y : det c st b x -> det c st b' y -> tot x = tot y.
Proof.
  unfold tot. destruct c as [[|n]| | | |k|msg|m k|m|c|bb]; cbn [det]; intros X Y; try (rewrite X, Y; reflexivity).
  - destruct X as (o & stk & A & ->), Y as (o' & stk' & A' & ->). rewrite A in A'. injection A' as <- <-. reflexivity.
  - destruct X as (o & stk & A & _ & ->), Y as (o' & stk' & A' & _ & ->). rewrite A in A'. injection A' as <- <-. reflexivity.
  - destruct X as (f0 & t & A & ->), Y as (f0' & t' & A' & ->). rewrite A in A'. apply app_inj_tail in A' as [<- <-]. reflexivity.
Qed.
Lemma det_evf {B} (c : cmd B) st b x : det c st b x -> evf (tot st) (tot x).
Proof.
  unfold tot. destruct c as [[|n]| | | |k|msg|m k|m|c|bb]; cbn [det]; intros X; try (rewrite X; constructor).
  - rewrite X. cbn [a_stack a_kids total o_before o_first opt_tree app]. rewrite app_nil_r. constructor.
  - rewrite X. cbn [a_stack a_kids]. rewrite total_app. apply evf_leaf; constructor.
  - rewrite X. cbn [set_kids a_stack a_kids]. rewrite total_app. apply evf_leaf; constructor.
  - destruct X as (o & stk & -> & ->). cbn [a_stack a_kids total]. rewrite !total_app. apply evf_wrap. constructor.
  - destruct X as (o & stk & -> & F & ->). cbn [a_stack a_kids total]. rewrite F. cbn [opt_tree app]. constructor.
  - destruct X as (f0 & t & -> & ->). cbn [a_stack a_kids total o_before o_first opt_tree app]. constructor.
Qed.
Lemma exec_ev t {B} (c : cmd B) s st (K : B -> ast -> Prop) b s' : rel t s st -> step c st K -> exec c s = Ok (b, s') ->
  exists st', rel t s' st' /\ K b st' /\ det c st b st'.
Proof. intros R W E. pose proof (exec_sound t c s st _ R (step_det c st K W)) as O. rewrite E in O. exact O. Qed.

Definition evolves t {A} (Q : A -> ast -> Prop) (st : ast) (r : res (A * pstate)) : Prop :=
  forall a s', r = Ok (a, s') -> exists st', rel t s' st' /\ Q a st' /\ evf (tot st) (tot st').
Lemma interp_ev t rec : (forall f s st, rel t s st -> pre f st -> evolves t (post f st) st (rec f s)) ->
  forall A (p : prog A) s st Q, rel t s st -> wp p Q st -> evolves t Q st (interp rec p s).
Proof.
  intros HR A p. induction p as [a|B c k IH|f k IH]; intros s st Q R W x s' E; cbn [interp wp] in *.
  - injection E as <- <-. exists st. split; [exact R|]. split; [exact W|constructor].
  - apply bind_ok in E as ([b s1] & E1 & E). destruct (exec_ev _ _ _ _ _ _ _ R W E1) as (st1 & R1 & W1 & D).
    destruct (IH b s1 st1 Q R1 W1 x s' E) as (st' & R' & Q' & V). exists st'. split; [exact R'|]. split; [exact Q'|].
    eapply evf_trans; [eapply det_evf; exact D|exact V].
  - destruct W as [Hp W]. apply bind_ok in E as ([b s1] & E1 & E). destruct (HR f s st R Hp _ _ E1) as (st1 & R1 & P1 & V1).
    destruct (IH b s1 st1 Q R1 (W _ _ P1) x s' E) as (st' & R' & Q' & V). exists st'. split; [exact R'|]. split; [exact Q'|].
    eapply evf_trans; eassumption.
Qed.
Lemma run_ev t n : forall f s st, rel t s st -> pre f st -> evolves t (post f st) st (run n f s).
Proof.
  induction n as [|n IH]; intros f s st R P; [intros a s' E; discriminate E|]. cbn [run]. apply (interp_ev t (run n) IH); [exact R|].
  apply body_sound. exact P.
Qed.

(** ** Two runs *)
Lemma kinds_set m k fp k' fp' evs : nth_error evs m = Some (EStart k fp) -> kinds (set_nth evs m (EStart k' fp')) = kinds evs.
Proof. intros H. rewrite <- kinds_sig, (sig_set _ _ _ _ _ _ H). apply kinds_sig. Qed.
Lemma lay_kinds evs stk f : lay evs stk f -> fleaves (total stk f) = kinds evs.
Proof.
  induction 1 as [seg f D|evs stk f0 seg f L IH D|evs stk f0 n off k t seg f L IH C E D].
  - apply den_kinds. exact D.
  - cbn [total o_before o_first opt_tree app]. rewrite total_app, fl_app, IH, kinds_app, (den_kinds _ _ D). reflexivity.
  - cbn [total o_before o_first opt_tree]. rewrite total_app, !fl_app, IH, !kinds_app, (kinds_set _ _ _ _ _ _ E), (den_kinds _ _ D).
    do 2 f_equal. rewrite <- (app_nil_r n). apply (den_kinds (n ++ []) [t]). eapply den_node; [exact C|constructor].
Qed.

Section Keep.
  Variables t t' : text.
  Variable a : list pc.
  Notation T := (length (proper a)).
  Definition parted (f f' : forest) : Prop := exists x, evf x f /\ evf x f' /\ (T + lead a <= length (fleaves x) + 2)%nat.
  Definition jointly {A} (Q Q' : A -> ast -> Prop) (r r' : res (A * pstate)) : Prop :=
    forall b s b' s', r = Ok (b, s) -> r' = Ok (b', s') -> exists st st', rel t s st /\ rel t' s' st' /\ Q b st /\ Q' b' st' /\
      ((b = b' /\ st = st' /\ exists c, zone a c s s') \/ parted (tot st) (tot st')).

  Lemma zone_cur c s s' st st' : zone a c s s' -> rel t s st -> rel t' s' st' -> a_cur st = a_cur st'.
  Proof.
    intros [(r & k & L) (r' & k' & L') _ _ Lg _] R R'.
    rewrite <- (ParserLogic.cur_kind _ _ _ _ (r_lex _ _ _ R)), <- (ParserLogic.cur_kind _ _ _ _ (r_lex _ _ _ R')).
    rewrite (cur_side _ _ _ L), (cur_side _ _ _ L'), (cur_of _ _ _ L), (cur_of _ _ _ L'), !cur_common by exact Lg. reflexivity.
  Qed.

  Lemma exec_joint {B} (cm : cmd B) c s s' st (K : B -> ast -> Prop) : zone a c s s' -> rel t s st -> rel t' s' st -> step cm st K ->
    jointly K K (exec cm s) (exec cm s').
  Proof.
    intros Z R R' W b s1 b' s1' E E'. destruct (exec_ev _ _ _ _ _ _ _ R W E) as (x & Rx & Kx & D).
    destruct (exec_ev _ _ _ _ _ _ _ R' W E') as (x' & Rx' & Kx' & D'). exists x, x'. repeat (split; [assumption|]).
    destruct (exec_meets a cm c s s' Z _ _ _ _ E E') as [[<- (c1 & Z1)]|(com & y & y' & C & C' & L)].
    - left. split; [reflexivity|]. split; [|eauto]. eapply det_same; [exact D|exact D'|]. eapply zone_cur; eassumption.
    - right. exists (tot x). split; [constructor|]. split; [apply evf_eq; eapply det_tot; eassumption|].
      pose proof (lay_kinds _ _ _ (r_lay _ _ _ Rx)) as Q. unfold tot. rewrite Q, kinds_taken, <- taken_sig, C, taken_app. lia.
  Qed.
  Lemma interp_joint n :
    (forall f c s s' st, zone a c s s' -> rel t s st -> rel t' s' st -> pre f st -> jointly (post f st) (post f st) (run n f s) (run n f s')) ->
    forall A (p : prog A) c s s' st Q, zone a c s s' -> rel t s st -> rel t' s' st -> wp p Q st ->
      jointly Q Q (interp (run n) p s) (interp (run n) p s').
  Proof.
    intros HR A p. induction p as [x|B cm k IH|f k IH]; intros c s s' st Q Z R R' W b s1 b' s1' E E'; cbn [interp wp] in *.
    - injection E as <- <-. injection E' as <- <-. exists st, st. repeat (split; [assumption|]). left. eauto.
    - apply bind_ok in E as ([y s2] & E1 & E). apply bind_ok in E' as ([y' s2'] & E1' & E').
      destruct (exec_joint cm c s s' st _ Z R R' W _ _ _ _ E1 E1') as (x & x' & Rx & Rx' & Wx & Wx' & [(<- & <- & c2 & Z2)|(X & V & V' & L)]).
      + exact (IH y c2 _ _ _ Q Z2 Rx Rx' Wx _ _ _ _ E E').
      + destruct (interp_ev t _ (run_ev t n) _ _ _ _ _ Rx Wx _ _ E) as (z & Rz & Qz & Vz).
        destruct (interp_ev t' _ (run_ev t' n) _ _ _ _ _ Rx' Wx' _ _ E') as (z' & Rz' & Qz' & Vz').
        exists z, z'. repeat (split; [assumption|]). right. exists X. split; [exact (evf_trans _ _ _ V Vz)|]. split; [exact (evf_trans _ _ _ V' Vz')|exact L].
    - destruct W as [Hp W]. apply bind_ok in E as ([y s2] & E1 & E). apply bind_ok in E' as ([y' s2'] & E1' & E').
      destruct (HR f c s s' st Z R R' Hp _ _ _ _ E1 E1') as (x & x' & Rx & Rx' & Wx & Wx' & [(<- & <- & c2 & Z2)|(X & V & V' & L)]).
      + exact (IH y c2 _ _ _ Q Z2 Rx Rx' (W _ _ Wx) _ _ _ _ E E').
      + destruct (interp_ev t _ (run_ev t n) _ _ _ _ _ Rx (W _ _ Wx) _ _ E) as (z & Rz & Qz & Vz).
        destruct (interp_ev t' _ (run_ev t' n) _ _ _ _ _ Rx' (W _ _ Wx') _ _ E') as (z' & Rz' & Qz' & Vz').
        exists z, z'. repeat (split; [assumption|]). right. exists X. split; [exact (evf_trans _ _ _ V Vz)|]. split; [exact (evf_trans _ _ _ V' Vz')|exact L].
  Qed.
  Lemma run_joint n : forall f c s s' st, zone a c s s' -> rel t s st -> rel t' s' st -> pre f st ->
    jointly (post f st) (post f st) (run n f s) (run n f s').
  Proof.
    induction n as [|n IH]; intros f c s s' st Z R R' P; [intros b s1 b' s1' E; discriminate E|]. cbn [run].
    eapply interp_joint; [exact IH|exact Z|exact R|exact R'|]. apply body_sound. exact P.
  Qed.
End Keep.

(** ** The tree of one file *)
Lemma parse_kept t ws g errs : tlen t < u32_bound -> token_stream t ws -> ascii_literals ws -> parse_text t = Ok (g, errs) ->
  exists lx n s F gs, lexer_new t = Ok lx /\ Forall real ws /\ steps t ws [] /\
    (forall m, (n <= m)%nat -> exists u, interp (run m) root (parser_new lx) = Ok (u, s)) /\
    den (ps_events s) [TNode SOURCE_FILE F] /\ strip g = [TNode SOURCE_FILE (strip_forest F)] /\
    ungroup gs = ws /\ Forall solid (tl gs) /\ Forall2 (fun g k => remap (fst (fst g)) k) gs (fleaves F).
Proof.
  intros Hs Ts A PT. destruct (stream_steps' _ _ Ts A) as [S R].
  unfold parse_text in PT. apply bind_ok in PT as (lx & HL & PT). unfold parse_with_lexer in PT.
  pose proof (grammar_sound t lx (parse_fuel (lx_text lx)) HL) as GS. set (n := parse_fuel (lx_text lx)) in *.
  destruct (interp (run n) root (parser_new lx)) as [[u s]|w|] eqn:E; cbn [bind] in PT; try discriminate PT.
  destruct GS as (F & gs & P). destruct (build_ok _ _ _ _ _ Hs P) as (g' & errs' & B & O). rewrite B in PT. injection PT as -> ->.
  exists lx, n, s, F, gs. split; [exact HL|]. split; [exact R|]. split; [exact S|]. split.
  { intros m L. exists u. eapply interp_le; eassumption. }
  split; [apply P|]. split.
  { destruct (ro_root _ _ _ _ _ O) as (cs & -> & Ec). cbn [strip]. rewrite Ec. reflexivity. }
  split; [|split; apply P]. eapply steps_same; [apply P|apply O|exact S|exact R].
Qed.
Lemma start_rel t lx : lexer_new t = Ok lx -> exists k, rel t (parser_new lx) (Ast k None [] []).
Proof.
  intros HL. destruct (lexer_new_inv _ _ HL) as (k & len & I). exists k. constructor; cbn.
  - constructor. constructor.
  - exact Logic.I.
  - exists [], t, len. cbn. split; [exact I|]. split; [constructor|]. split; [constructor|]. split; [contradiction|constructor].
  - constructor.
Qed.
Lemma root_wp k : wp root (fun _ st' => a_stack st' = [] /\ exists F, a_kids st' = [TNode SOURCE_FILE F]) (Ast k None [] []).
Proof.
  unfold root. apply wp_bind, wp_start. intros m. apply wp_bind, wp_root_call. intros l' new Hn.
  apply wp_bind, wp_complete; [discriminate|intro; discriminate|]. intros r. cbn. eauto.
Qed.
Lemma strip_leaves f : fleaves (strip_forest f) = filter (fun k => negb (is_trivia k)) (fleaves f).
Proof.
  assert (G : forall x, fleaves (strip_tree x) = filter (fun k => negb (is_trivia k)) (leaves x)).
  { fix IH 1. intros [k cs|k|m]; cbn [strip_tree leaves].
    - rewrite fl_node. induction cs as [|c cs IHc]; [reflexivity|]. cbn [flat_map]. rewrite fl_app, filter_app, IH, IHc. reflexivity.
    - cbn [filter]. destruct (is_trivia k); reflexivity.
    - reflexivity. }
  induction f as [|x f IH]; [reflexivity|]. unfold strip_forest, fleaves in *. cbn [flat_map]. rewrite flat_map_app, filter_app, IH.
  f_equal. apply G.
Qed.
Lemma solid_prefix a b gs ks r : ungroup gs = a ++ b -> a <> [] -> Forall solid (tl gs) -> Forall2 (fun g k => remap (fst (fst g)) k) gs (ks ++ r) ->
  (length ks <= length (filter (fun k => negb (is_trivia k)) ks) + lead a)%nat.
Proof.
  intros U Na Sl F.
  destruct gs as [|[p tr] gs]; [destruct a; [contradiction|discriminate U]|]. inversion F as [|? k0 ? ks0 R F1 Eg Ek]; subst. cbn [tl] in Sl.
  assert (Fk : Forall (fun k => is_trivia k = false) ks0).
  { clear - F1 Sl. induction F1 as [|g k gs ks R _ IH]; [constructor|]. inversion Sl; subst. constructor; [|auto]. eapply remap_solid; [exact R|assumption]. }
  destruct ks as [|k1 kc]; [cbn; lia|]. cbn [app] in Ek. injection Ek as -> ->. apply Forall_app in Fk as [Fk _].
  cbn [filter length]. pose proof (solid_all _ Fk) as X. unfold lead. destruct a as [|q a]; [contradiction|]. rewrite ungroup_cons in U. injection U as -> _.
  cbn [fst] in R. destruct (is_trivia (fst q)) eqn:Tq.
  - destruct (is_trivia k1); cbn [negb length]; rewrite X; lia.
  - rewrite (remap_solid _ _ R Tq). cbn [negb length]. rewrite X. lia.
Qed.

Lemma keep_main t t' a b b' g errs g' errs' n u : tlen t < u32_bound -> tlen t' < u32_bound ->
  token_stream t (a ++ b) -> token_stream t' (a ++ b') -> ascii_literals (a ++ b) -> ascii_literals (a ++ b') ->
  parse_text t = Ok (g, errs) -> parse_text t' = Ok (g', errs') ->
  sits n u (strip g) -> (n + length (leaves u) + 3 <= length (proper a))%nat -> sits n u (strip g').
Proof.
  intros Hs Hs' Ts Ts' A A' PT PT' Su Lu.
  destruct (parse_kept _ _ _ _ Hs Ts A PT) as (lx & m & s & F & gs & HL & R & S & I & D & Eg & Ug & Sl & Fl).
  destruct (parse_kept _ _ _ _ Hs' Ts' A' PT') as (lx' & m' & s' & F' & gs' & HL' & R' & S' & I' & D' & Eg' & _).
  assert (Na : a <> []) by (intros ->; cbn in Lu; lia).
  assert (Z : zone a a (parser_new lx) (parser_new lx')).
  { destruct (lexer_new_inv _ _ HL) as (k & len & J). destruct (lexer_new_inv _ _ HL') as (k' & len' & J').
    constructor; cbn [parser_new ps_lexer ps_events ps_steps]; auto; [| |lia].
    - exists b, k. constructor; [|exact R]. exists t, [], t, len. auto.
    - exists b', k'. constructor; [|exact R']. exists t', [], t', len'. auto. }
  destruct (I (m + m')%nat ltac:(lia)) as [v E]. destruct (I' (m + m')%nat ltac:(lia)) as [v' E'].
  destruct (start_rel _ _ HL) as [k R0]. destruct (start_rel _ _ HL') as [k' R0'].
  assert (k' = k) as ->.
  { symmetry. apply (zone_cur t t' a a (parser_new lx) (parser_new lx') (Ast k None [] []) (Ast k' None [] [])); assumption. }
  destruct (interp_joint t t' a (m + m') (run_joint t t' a (m + m')) _ root a _ _ _ _ Z R0 R0' (root_wp k) _ _ _ _ E E')
    as (st & st' & Rl & Rl' & (S1 & F1 & K1) & (S2 & F2 & K2) & Alt).
  pose proof (r_lay _ _ _ Rl) as Ly. rewrite S1, K1 in Ly. inversion Ly as [? ? Dn| |]; subst.
  pose proof (r_lay _ _ _ Rl') as Ly'. rewrite S2, K2 in Ly'. inversion Ly' as [? ? Dn'| |]; subst.
  pose proof (den_inj _ _ _ D Dn) as X. injection X as <-. pose proof (den_inj _ _ _ D' Dn') as X. injection X as <-.
  rewrite Eg in Su. rewrite Eg'. destruct Alt as [(_ & <- & _)|(x & V & V' & L)].
  - rewrite K1 in K2. injection K2 as <-. exact Su.
  - unfold tot in V, V'. rewrite S1, K1 in V. rewrite S2, K2 in V'. cbn [total] in V, V'.
    destruct (evf_leaves _ _ V) as [r Er]. rewrite fl_node in Er. rewrite Er in Fl.
    pose proof (solid_prefix _ _ _ _ _ Ug Na Sl Fl) as Lx. rewrite <- strip_leaves in Lx.
    apply evf_strip in V, V'. apply (keeps_both _ _ _ _ _ V V'); [lia|exact Su].
Qed.
