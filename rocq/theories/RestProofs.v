(** The tree and the messages of the rest of a file. *)
From Coq Require Import String.
From Verif Require Import Base BaseProofs Kinds KindsProofs LexSpec TokenSet Lexer LexerRuns LexerProofs LexerStateProofs Parser Grammar Sink TreeSpec GreenSpec ParserLogic GrammarProofs SinkProofs ParseProofs TermProofs ParserTotal SyntaxSpec AcceptRules AcceptProofs AcceptTop LimitProofs UnknownSpec UnknownProofs GapTop BeforeSpec ProcessProofs ShapeSpec ShapeProofs LayoutSpec LayoutProofs BeforeProofs SharedSpec SharedProofs KeepSpec KeepProofs ShiftProofs.
Local Open Scope N_scope.

(** ** Between two items the parser is at the head of its loop *)
Section Heads.
  Variable t : text.
  Definition at_heads (K new : forest) (stk : list open_) (s' : pstate) : Prop :=
    forall x y, new = x ++ y -> exists m s1 st1 u, rel t s1 st1 /\ a_stack st1 = stk /\ a_kids st1 = K ++ x /\ run m F_root s1 = Ok (u, s').
  Ltac round E := cbn [run body] in E; unfold root_body in E;
    repeat (match type of E with
      | interp _ (pbind _ _) _ = _ => rewrite interp_bind in E; apply bind_ok in E as ([? ?] & ? & E)
      | interp _ (if ?b then _ else _) _ = _ => destruct b eqn:?
      end; try match goal with
      | R : rel t ?s ?st, H : interp (run _) (at_ _) ?s = Ok _ |- _ => destruct (at_inv t _ _ _ _ _ _ R H) as [-> ?]; clear H; clear R; cbn [a_cur] in E
      | R : rel t ?s ?st, H : interp (run _) current ?s = Ok _ |- _ => destruct (current_inv t _ _ _ _ _ R H) as [-> ?]; clear H; clear R; cbn [a_cur] in E
      end).
  Lemma root_heads n : forall s c l K stk u s', rel t s (Ast c l K stk) -> run n F_root s = Ok (u, s') ->
    exists st' new, rel t s' st' /\ a_stack st' = stk /\ a_kids st' = K ++ new /\ at_heads K new stk s'.
  Proof.
    induction n as [|n IH]; intros s c l K stk u s' R E; [discriminate E|].
    assert (Q : stuck_at c = true -> False) by (intros S; exact (root_loops t (Datatypes.S n) s c l K stk _ R S E)).
    pose proof R as R0. pose proof E as E0.
    assert (Step : forall s1 (x : ast) u2 y, rel t s1 x -> a_stack x = stk -> a_kids x = K ++ [y] ->
      interp (run n) (call F_root) s1 = Ok (u2, s') -> exists st' new, rel t s' st' /\ a_stack st' = stk /\ a_kids st' = K ++ new /\ at_heads K new stk s').
    { clear - IH R0 E0. intros s1 [c1 l1 K1 k1] u2 y R1 X1 X2 E. cbn [a_stack a_kids] in *. subst k1 K1.
      unfold call in E. cbn [interp] in E. apply bind_ok in E as ([b s3] & E3 & E). injection E as _ ->.
      destruct (IH _ _ _ _ _ _ _ R1 E3) as (st' & new & R' & Y1 & Y2 & Y3). exists st', (y :: new). rewrite <- app_assoc in Y2. cbn [app] in Y2.
      split; [exact R'|]. split; [exact Y1|]. split; [exact Y2|]. intros [|z x] w Ez.
      - exists (Datatypes.S n), s, (Ast c l K stk), u. cbn [a_stack a_kids]. rewrite app_nil_r. auto.
      - cbn [app] in Ez. injection Ez as <- Ez. destruct (Y3 _ _ Ez) as (m & s2 & st2 & u3 & A1 & A2 & A3 & A4).
        exists m, s2, st2, u3. rewrite <- app_assoc in A3. auto. }
    round E.
    - cbn [interp] in E. injection E as _ <-. eexists _, []. split; [eassumption|]. cbn [a_stack a_kids]. rewrite app_nil_r. split; [reflexivity|].
      split; [reflexivity|]. intros x y Exy. symmetry in Exy. apply app_eq_nil in Exy as [-> ->].
      exists (Datatypes.S n), s, (Ast c l K stk), u. cbn [a_stack a_kids]. rewrite app_nil_r. auto.
    - match goal with R : rel t ?s (Ast ?c ?l ?K ?k), H : interp _ module ?s = Ok _ |- _ =>
        destruct (sound t module _ _ _ _ _ _ R (one_module c l K k) H) as (x & R1 & X1 & kk & cs & X2);
        exact (Step _ _ _ (TNode kk cs) R1 X1 X2 E) end.
    - match goal with R : rel t ?s (Ast ?c ?l ?K ?k), H : interp _ script ?s = Ok _ |- _ =>
        destruct (sound t script _ _ _ _ _ _ R (one_script c l K k) H) as (x & R1 & X1 & kk & cs & X2);
        exact (Step _ _ _ (TNode kk cs) R1 X1 X2 E) end.
    - match goal with R : rel t ?s (Ast ?c ?l ?K ?k), H : interp _ address ?s = Ok _ |- _ =>
        destruct (sound t address _ _ _ _ _ _ R (one_address c l K k) H) as (x & R1 & X1 & kk & cs & X2);
        exact (Step _ _ _ (TNode kk cs) R1 X1 X2 E) end.
    - match goal with R : rel t ?s (Ast ?c ?l ?K ?k), H : interp _ bump_any ?s = Ok _ |- _ =>
        destruct (sound t bump_any (fun _ x => a_stack x = k /\ exists j, a_kids x = K ++ [TTok j]) _ _ _ _ _ R ltac:(apply wp_bump_any; [intros X; rewrite X in *; discriminate|intros; cbn [a_stack a_kids]; eauto]) H) as (x & R1 & X1 & j & X2);
        exact (Step _ _ _ (TTok j) R1 X1 X2 E) end.
    - exfalso. apply Q. unfold stuck_at. repeat match goal with H : _ = false |- _ => rewrite H; clear H end. reflexivity.
  Qed.
End Heads.

(** ** The two files *)
Lemma lay_one evs m f : lay evs [Open m None []] f -> den evs f.
Proof.
  intros H. inversion H as [|evs0 stk f0 seg ? L D Ee|]; subst. inversion L as [? ? D0| |]; subst.
  change f with ([] ++ f). apply den_app; [exact D0|]. constructor. exact D.
Qed.
Lemma den_after_tomb evs f : den (tombstone :: evs) f -> den evs f.
Proof.
  intros H. inversion H as [| | |? ? D|n u off s0 f0 C D E]; subst; [exact D|].
  inversion C as [i k s1 f1 K D1|i k s1 f1 seg u1 off1 K D1 C1]; subst; cbn [app] in E; injection E as E1 E2; congruence.
Qed.
Lemma strip_split new : forall f r, strip_forest new = f ++ r -> exists x y, new = x ++ y /\ strip_forest x = f /\ strip_forest y = r.
Proof.
  induction new as [|u new IH]; intros f r E.
  - symmetry in E. apply app_eq_nil in E as [-> ->]. exists [], []. auto.
  - change (u :: new) with ([u] ++ new) in E. rewrite strip_app in E.
    assert (C : strip_forest [u] = [] \/ exists v, strip_forest [u] = [v]).
    { unfold strip_forest. cbn [flat_map]. rewrite app_nil_r. destruct u as [k cs|k|m]; cbn [strip_tree]; [eauto| |auto]. destruct (is_trivia k); eauto. }
    destruct C as [C|[v C]]; rewrite C in E; cbn [app] in E.
    + destruct (IH _ _ E) as (x & y & -> & Ex & Ey). exists (u :: x), y. split; [reflexivity|]. split; [|exact Ey].
      change (u :: x) with ([u] ++ x). rewrite strip_app, C. exact Ex.
    + destruct f as [|v' f].
      * cbn [app] in E. subst r. exists [], (u :: new). split; [reflexivity|]. split; [reflexivity|].
        change (u :: new) with ([u] ++ new). rewrite strip_app, C. reflexivity.
      * cbn [app] in E. injection E as <- E. destruct (IH _ _ E) as (x & y & -> & Ex & Ey). exists (u :: x), y. split; [reflexivity|]. split; [|exact Ey].
        change (u :: x) with ([u] ++ x). rewrite strip_app, C, Ex. reflexivity.
Qed.
Lemma stream_all t ws : token_stream t ws -> t = concat (map snd ws).
Proof. induction 1 as [|k w rest ws L M S E]; [reflexivity|]. cbn [map snd concat]. rewrite <- E. reflexivity. Qed.
Lemma stream_rest t a b : token_stream t (a ++ b) -> token_stream (concat (map snd b)) b.
Proof.
  revert t. induction a as [|p a IH]; intros t H; cbn [app] in H.
  - enough (t = concat (map snd b)) as <- by exact H. induction H as [|k w rest ws L M S E]; [reflexivity|]. cbn [map snd concat]. rewrite <- E. reflexivity.
  - inversion H; subst. eauto.
Qed.
Lemma heard_shift evs : forall n, heard n evs = map (fun p => (fst p, n + snd p)%nat) (heard 0 evs).
Proof.
  induction evs as [|e evs IH]; intros n; [reflexivity|]. destruct e; cbn [heard map]; auto.
  - rewrite IH, (IH (0 + _)%nat), map_map. apply map_ext. intros [m j]. cbn [fst snd]. f_equal. lia.
  - rewrite <- IH. cbn [fst snd]. rewrite Nat.add_0_r. reflexivity.
Qed.
Lemma same_rest a b c r : a ++ b = c ++ r -> length (proper a) = length (proper c) -> is_trivia (cur_kind b) = false -> b <> [] ->
  is_trivia (cur_kind r) = false -> b = r.
Proof.
  revert c. induction a as [|p a IH]; intros c E L B Nb R.
  - destruct c as [|q c]; [exact E|]. cbn [app] in E. subst b. cbn [cur_kind] in B. cbn [proper filter] in L. rewrite B in L. discriminate L.
  - destruct c as [|q c]; cbn [app] in E.
    + subst r. cbn [cur_kind] in R. cbn [proper filter] in L. rewrite R in L. discriminate L.
    + injection E as <- E. apply (IH c E); auto. cbn [proper filter] in L. destruct (negb _) in L; [injection L as L; exact L|exact L].
Qed.
Lemma proper_groups gs ks : Forall group_ok gs -> Forall2 (fun g k => remap (fst (fst g)) k) gs ks ->
  length (proper (ungroup gs)) = length (filter (fun k => negb (is_trivia k)) ks).
Proof.
  intros G F. induction F as [|g k gs ks R F IH]; [reflexivity|]. inversion G as [|? ? [G1 _] G2]; subst.
  destruct g as [p tr]. cbn [fst snd] in *. change (ungroup ((p, tr) :: gs)) with (([p] ++ tr) ++ ungroup gs).
  rewrite (proper_app ([p] ++ tr)), (proper_app [p]), (proper_trivia _ G1), app_nil_r, app_length, (IH G2). cbn [proper filter].
  assert (X : is_trivia (fst p) = is_trivia k) by (destruct R as [->|[-> ->]]; reflexivity). rewrite X.
  destruct (is_trivia k); reflexivity.
Qed.
Lemma spots_shift ws wsb n ms : forall es es', Forall2 (spot ws) es (map (fun p => (fst p, n + snd p)%nat) ms) -> Forall2 (spot wsb) es' ms ->
  Forall2 (fun e e' => se_msg e = se_msg e' /\ exists i, stands_after ws (n + i) e /\ stands_after wsb i e') es es'.
Proof.
  induction ms as [|[m j] ms IH]; intros es es' H H'; inversion H; inversion H'; subst; constructor; [|auto].
  match goal with A : spot ws _ _, B : spot wsb _ _ |- _ => apply spot_stands in A as [A1 A2]; apply spot_stands in B as [B1 B2] end.
  cbn [fst snd] in *. split; [congruence|eauto].
Qed.

Lemma den_source X y : den X y -> den (EStart SOURCE_FILE None :: X ++ [EFinish]) [TNode SOURCE_FILE y].
Proof.
  intros D. rewrite <- (app_nil_r (EStart SOURCE_FILE None :: X ++ [EFinish])). eapply den_node; [|constructor].
  apply (chain_last None). { discriminate. } exact D.
Qed.

Lemma rest_main t a b f r g errs : tlen t < u32_bound -> token_stream t (a ++ b) -> ascii_literals (a ++ b) ->
  parse_text t = Ok (g, errs) -> strip g = [TNode SOURCE_FILE (f ++ r)] -> length (flat_map leaves f) = length (proper a) ->
  proper a <> [] -> b <> [] -> is_trivia (cur_kind b) = false ->
  exists gb errsb early late, parse_text (concat (map snd b)) = Ok (gb, errsb) /\ strip gb = [TNode SOURCE_FILE r] /\ errs = early ++ late /\
    Forall (fun e => exists i, (i <= length (proper a))%nat /\ stands_after (a ++ b) i e) early /\
    Forall2 (fun e e' => se_msg e = se_msg e' /\ exists i, stands_after (a ++ b) (length (proper a) + i) e /\ stands_after b i e') late errsb /\
    exists lx n u s x y, lexer_new t = Ok lx /\ interp (run n) root (parser_new lx) = Ok (u, s) /\ den (ps_events s) [TNode SOURCE_FILE (x ++ y)] /\
      strip_forest x = f /\ Forall2 (spot (a ++ b)) early (noted 0 x).
Proof.
  intros Hs Ts A PT Eg Lf Na Nb Tb.
  destruct (parse_told _ _ _ _ Hs Ts A PT) as (lx & n & s & HL & S & R & I & To).
  destruct (parse_kept _ _ _ _ Hs Ts A PT) as (lx_ & n' & s_ & F & gs & HL_ & _ & _ & I' & D & Eg' & _).
  rewrite HL in HL_. injection HL_ as <-.
  assert (s_ = s) as ->.
  { destruct (I (n + n')%nat ltac:(lia)) as [v E]. destruct (I' (n + n')%nat ltac:(lia)) as [v' E']. congruence. }
  destruct (I n ltac:(lia)) as [v E]. clear I I' n'. pose proof E as Eall.
  destruct (start_rel _ _ HL) as [k R0].
  (* the run of the file *)
  unfold root in E. rewrite interp_bind in E. apply bind_ok in E as ([m s0] & E1 & E).
  destruct (sound t start (fun m x => x = Ast k None [] [Open m None []]) _ _ _ _ _ R0 ltac:(apply wp_start; reflexivity) E1) as (x0 & R1 & ->).
  rewrite interp_bind in E. apply bind_ok in E as ([u2 s2] & E2 & E). unfold call in E2. cbn [interp] in E2. apply bind_ok in E2 as ([bb s3] & E3 & E2).
  injection E2 as _ <-. destruct (root_heads t n _ _ _ _ _ _ _ R1 E3) as ([c2 l2 K2 k2] & new & R2 & X1 & X2 & Hd). cbn [a_stack a_kids app] in *. subst k2 K2.
  assert (W : wp (complete m SOURCE_FILE ;; Ret tt) (fun _ x => a_stack x = [] /\ a_kids x = [TNode SOURCE_FILE new]) (Ast c2 l2 new [Open m None []])).
  { apply wp_bind. apply wp_complete; [discriminate|intro; discriminate|]. intros w. split; reflexivity. }
  destruct (sound t _ _ _ _ _ _ _ R2 W E) as (x & R' & Y1 & Y2).
  assert (D2 : den (ps_events s) [TNode SOURCE_FILE new]).
  { pose proof (r_lay _ _ _ R') as Ly. rewrite Y1, Y2 in Ly. inversion Ly; subst. assumption. }
  pose proof (den_inj _ _ _ D D2) as Q. injection Q as ->. rewrite Eg in Eg'. injection Eg' as Es. symmetry in Es.
  destruct (strip_split _ _ _ Es) as (x1 & y1 & -> & Ex & Ey). clear Es.
  destruct (Hd _ _ eq_refl) as (m1 & s1 & st1 & u1 & Rh & Sh & Kh & Eh). cbn [app] in Kh.
  pose proof (r_lay _ _ _ Rh) as Lh. rewrite Sh, Kh in Lh. apply lay_one in Lh.
  pose proof (r_lay _ _ _ R2) as L2. cbn [a_stack a_kids] in L2. apply lay_one in L2.
  (* the lexer there *)
  assert (Lb : exists kb, lside (ps_lexer s1) b kb).
  { destruct (r_lex _ _ _ Rh) as (gs1 & rest & len & Inv & Gk & Sol & Nt & Fl). rewrite Sh, Kh in Fl. cbn [total o_before o_first opt_tree app] in Fl.
    destruct (ShapeProofs.steps_split _ _ _ (li_steps _ _ _ _ _ _ Inv) _ S (ungroup_no_eof _ Gk)) as (rem & Er & Sr).
    assert (C : length (proper a) = length (proper (ungroup gs1))).
    { rewrite (proper_groups _ _ Gk Fl), <- strip_leaves, Ex, <- Lf. reflexivity. }
    assert (Ng : gs1 <> []) by (intros ->; apply Na; cbn in C; destruct (proper a); [reflexivity|discriminate C]).
    assert (Rr : Forall real rem) by (rewrite Er in R; apply Forall_app in R; apply R).
    assert (Sd : lside (ps_lexer s1) rem (a_cur st1)). { constructor; [|exact Rr]. exists t, (ungroup gs1), rest, len. auto. }
    exists (a_cur st1). enough (b = rem) as -> by exact Sd.
    apply (same_rest a b (ungroup gs1) rem); auto. rewrite <- (cur_of _ _ _ Sd). apply Nt, Ng. }
  destruct Lb as [kb Lb].
  (* the rest alone *)
  pose proof (stream_rest _ _ _ Ts) as Tsb. set (tb := concat (map snd b)) in *.
  assert (Ab : ascii_literals b) by (apply Forall_app in A; apply A).
  destruct (stream_steps' _ _ Tsb Ab) as [Sb Rb].
  assert (Hb : tlen tb < u32_bound).
  { rewrite (stream_all _ _ Ts), map_app, concat_app, tlen_app in Hs. fold tb in Hs. lia. }
  assert (HLb : exists lxb, lexer_new tb = Ok lxb).
  { unfold lexer_new. inversion Sb as [? E0|kk w tt' ws rr Fk _ E0]; [exfalso; apply Nb; congruence|]. rewrite E0 in *. rewrite Fk. cbn [bind]. eauto. }
  destruct HLb as [lxb HLb]. destruct (lexer_new_inv _ _ HLb) as (k0 & len0 & Inv0). destruct (start_rel _ _ HLb) as [kr Rb0].
  set (sb := push_event (parser_new lxb) tombstone).
  assert (Lb' : lside lxb b k0). { constructor; [|exact Rb]. exists tb, [], tb, len0. auto. }
  assert (k0 = kb) as -> by (rewrite (cur_of _ _ _ Lb'), (cur_of _ _ _ Lb); reflexivity).
  assert (Z : srel (ps_events s1) [tombstone] s1 sb).
  { constructor; cbn [sb push_event parser_new ps_lexer ps_events ps_steps].
    - exists b, kb. auto.
    - exists []. rewrite !app_nil_r. auto.
    - apply N.le_0_l. }
  destruct (run_shift _ _ m1 F_root F_root _ _ _ _ eq_refl Z Eh) as (ub & sb2 & Eb & _ & Z2).
  destruct (sr_events _ _ _ _ Z2) as (X & EX & EX').
  destruct (sound tb start (fun m x => m = 0%nat -> x = Ast kr None [] [Open 0 None []]) (Ast kr None [] []) m1 (parser_new lxb) 0%nat sb Rb0 ltac:(apply wp_start; intros ? ->; reflexivity) eq_refl) as (x0 & Rb1 & Ex0).
  rewrite (Ex0 eq_refl) in Rb1. clear Ex0 x0.
  destruct (root_heads tb m1 _ _ _ _ _ _ _ Rb1 Eb) as ([c3 l3 K3 k3] & F0 & Rb2 & W1 & W2 & _). cbn [a_stack a_kids app] in W1, W2. subst k3 K3.
  pose proof (r_lay _ _ _ Rb2) as Lb2. cbn [a_stack a_kids] in Lb2. apply lay_one in Lb2. rewrite EX' in Lb2. apply den_after_tomb in Lb2.
  assert (F0 = y1) as ->.
  { pose proof (den_app _ _ _ _ Lh Lb2) as Q. rewrite <- EX in Q. pose proof (den_inj _ _ _ L2 Q) as Q2. apply app_inv_head in Q2. auto. }
  set (sb3 := with_events sb2 (EStart SOURCE_FILE None :: X ++ [EFinish])).
  assert (Er : interp (run m1) root (parser_new lxb) = Ok (tt, sb3)).
  { unfold root. rewrite interp_bind. change (interp (run m1) start (parser_new lxb)) with (Ok (0%nat, sb)). cbn [bind].
    rewrite interp_bind. unfold call. cbn [interp]. rewrite Eb. cbn [bind]. rewrite interp_bind. unfold complete, do_. cbn [interp exec].
    unfold exec_complete. rewrite EX'. cbn [app nth_error tombstone set_nth bind interp]. reflexivity. }
  assert (Ef : interp (run (parse_fuel (lx_text lxb))) root (parser_new lxb) = Ok (tt, sb3)).
  { pose proof (parse_ends _ _ HLb) as Nf. unfold parse_with_lexer in Nf. set (q := parse_fuel (lx_text lxb)) in *.
    assert (Nq : interp (run q) root (parser_new lxb) <> Fuel) by (intros Q; rewrite Q in Nf; apply Nf; reflexivity).
    rewrite <- (interp_le m1 (m1 + q) root _ _ ltac:(lia) Er). symmetry. apply interp_more; [|exact Nq].
    intros ff ss Qq. apply run_more; [lia|exact Qq]. }
  pose proof (grammar_sound tb lxb (parse_fuel (lx_text lxb)) HLb) as GS. rewrite Ef in GS. destruct GS as (Fb & gsb & Pb).
  destruct (build_ok _ _ _ _ _ Hb Pb) as (gb & errsb & B & O).
  assert (PTb : parse_text tb = Ok (gb, errsb)).
  { unfold parse_text. rewrite HLb. cbn [bind]. unfold parse_with_lexer. rewrite Ef. cbn [bind]. exact B. }
  pose proof (den_source _ _ Lb2) as Db.
  pose proof (den_inj _ _ _ (p_den _ _ _ _ _ Pb) Db) as Q. injection Q as ->.
  destruct (parse_told _ _ _ _ Hb Tsb Ab PTb) as (lx_ & nb & sb_ & HL_ & _ & _ & Ib & Tob).
  rewrite HLb in HL_. injection HL_ as <-.
  assert (sb_ = sb3) as ->.
  { destruct (Ib (nb + m1)%nat ltac:(lia)) as [w Ew]. rewrite (interp_le m1 (nb + m1) root _ _ ltac:(lia) Er) in Ew. congruence. }
  (* the messages *)
  pose proof (to_spots _ _ _ _ To) as Sp. pose proof (to_spots _ _ _ _ Tob) as Spb.
  destruct (den_heard _ _ D2) as [_ H2]. destruct (den_heard _ _ L2) as [_ H3]. destruct (den_heard _ _ Db) as [_ H4]. destruct (den_heard _ _ Lb2) as [_ H5].
  destruct (den_heard _ _ Lh) as [H6 H7].
  rewrite <- H2 in Sp. cbn [noted] in Sp. rewrite noted1_node, app_nil_r, H3, EX, heard_app in Sp.
  cbn [sb3 with_events ps_events] in Spb. rewrite <- H4 in Spb. cbn [noted] in Spb. rewrite noted1_node, app_nil_r, H5 in Spb.
  assert (C : solids (ps_events s1) = length (proper a)).
  { rewrite <- H6, <- Lf, <- Ex. unfold solid_leaves. fold (fleaves x1). rewrite <- strip_leaves. reflexivity. }
  rewrite C in Sp. cbn [Nat.add] in Sp. rewrite (heard_shift X) in Sp.
  apply Forall2_app_inv_r in Sp as (early & late & Se & Sl & ->).
  exists gb, errsb, early, late. split; [exact PTb|]. split.
  { destruct (ro_root _ _ _ _ _ O) as (cs & -> & Ec). cbn [strip]. rewrite Ec, Ey. reflexivity. }
  split; [reflexivity|]. split; [|split; [apply (spots_shift _ _ _ _ _ _ Sl Spb)|]].
  2:{ exists lx, n, v, s, x1, y1. rewrite H7. auto 8. }
  rewrite <- C. clear - Se. assert (G : forall n evs p, In p (heard n evs) -> (snd p <= n + solids evs)%nat).
  { intros n evs. revert n. induction evs as [|e evs IH]; intros n p Hp; [destruct Hp|].
    destruct e; cbn [heard] in Hp; unfold solids in *; cbn [filter].
    - eauto.
    - eauto.
    - apply IH in Hp. destruct (is_trivia k); cbn [negb length]; lia.
    - destruct Hp as [<-|Hp]; [cbn [snd]; lia|eauto]. }
  specialize (G 0%nat (ps_events s1)). cbn [Nat.add] in G. revert G. induction Se as [|e [mm j] es ms Sq _ IH]; intros G; constructor.
  - exists j. split; [apply (G (mm, j)); left; reflexivity|]. apply spot_stands in Sq. apply Sq.
  - apply IH. intros p Hp. apply G. right. exact Hp.
Qed.

(** ** Behind correct items *)
Lemma before_forest t ws f a b lx n u s : token_stream t ws -> ascii_strings t -> ~ comment_in_the_way ws -> ~ glued ws ->
  gen File f -> proper ws = a ++ b -> Forall2 stands_for (flat_map leaves f) a -> N.of_nat (length a) <= 1970 ->
  lexer_new t = Ok lx -> interp (run n) root (parser_new lx) = Ok (u, s) ->
  exists lead' f', den (ps_events s) [TNode SOURCE_FILE (lead' ++ f ++ f')] /\ Forall (fun y => exists k, y = TTok k /\ is_trivia k = true) lead'.
Proof.
  intros St A NC NG G Pr F L HL E.
  assert (P : place []) by constructor. assert (O : in_items [] -> forall p r, b = p :: r -> fst p <> SEMICOLON).
  { intros H. inversion H as [o [h is Hm Hi]| |]. }
  rewrite <- (app_nil_r (flat_map leaves f)) in F. change (@nil kind) with (opened_leaves []) in F. set (o := []) in O, P, F.
  pose proof (stream_steps _ _ St A) as S. pose proof (stream_no_eof _ _ St) as NE.
  destruct (grouping _ NE) as (lead & gs & Ew & T & Gk & Sol & M).
  rewrite Pr in M. apply map_eq_app in M. destruct M as (ga & gb & -> & Ma & Mb).
  assert (Off : in_items o -> off [SEMICOLON] (gcur gb)).
  { intros Hi. apply off_of. destruct gb as [|x gb]; cbn [gcur map] in *; [cbn; intuition discriminate|]. subst b. cbn. intros [X|[]]. exact (O Hi _ _ eq_refl (eq_sym X)). }
  assert (Sz : 5 * size ga + 140 <= 10000). { rewrite (size_map fst ga a Ma). lia. }
  pose proof (fits_map _ _ _ F Ma) as FF.
  destruct (lexer_new_inv _ _ HL) as (k & len & I).
  assert (W : exists gl, ungroup gl = ws /\ Forall group_ok gl /\ Forall solid (tl gl) /\ layout gl /\
    exists ld, gl = ld ++ ga ++ gb /\ (ld = [] \/ exists g, ld = [g] /\ is_trivia (fst (fst g)) = true)).
  { destruct lead as [|p lead].
    - cbn [app] in Ew. subst ws. exists (ga ++ gb). split; [reflexivity|]. split; [exact Gk|]. split; [destruct Sol; [constructor|assumption]|].
      split; [apply (group_layout _ []); assumption|]. exists []. auto.
    - inversion T as [|? ? T1 T2]; subst ws. subst.
      assert (Ne : fst p <> EOF). { intros X. unfold trivia_piece in T1. rewrite X in T1. discriminate. }
      exists ((p, lead) :: ga ++ gb). split; [rewrite ungroup_cons; reflexivity|]. split; [constructor; [split; assumption|exact Gk]|]. split; [exact Sol|].
      split; [apply (group_layout _ []); [constructor; [split; assumption|exact Gk]| |]; rewrite ungroup_cons; assumption|].
      exists [(p, lead)]. split; [reflexivity|]. right. exists (p, lead). split; [reflexivity|exact T1]. }
  destruct W as (gl & Ug & Gl & Sl & Ly & ld & El & Ld).
  assert (R0 : rel t (parser_new lx) (Ast k None [] [])).
  { constructor; cbn.
    - constructor. constructor.
    - exact Logic.I.
    - exists [], t, len. cbn. split; [exact I|]. split; [constructor|]. split; [constructor|]. split; [contradiction|constructor].
    - constructor. }
  assert (Kc : k = gcur gl).
  { rewrite <- Ug in S. destruct (steps_head _ _ S) as [m Fn]. rewrite (li_cur _ _ _ _ _ _ I) in Fn. injection Fn as -> _. reflexivity. }
  assert (Bo : both t (parser_new lx) (TS gl None [] [] 0)).
  { split.
    - constructor; cbn [parser_new ps_lexer ps_events ps_steps s_toks s_last s_kids s_stack s_spent]; auto.
      + apply lay_base. constructor.
      + exact Logic.I.
      + exists [], t, len. rewrite <- Kc, Ug. split; [exact I|exact S].
    - unfold ast_of. cbn [s_toks s_last s_kids s_stack]. rewrite <- Kc. exact R0. }
  subst gl. destruct (root_starts t f [] ga gb ld G P FF Off Sz Ld _ _ _ _ Bo E) as (x & Rx & Sx & lead' & f' & Kx & Bx & Lx).
  pose proof (r_lay _ _ _ Rx) as Lay. rewrite Sx, Kx in Lay. inversion Lay as [? ? D| |]; subst.
  exists lead', f'. auto.
Qed.

Lemma noted_prefix x z : forall n, noted n (x ++ z) = [] -> noted n x = [].
Proof. intros n H. rewrite noted_app in H. apply app_eq_nil in H. apply H. Qed.
Lemma noted_blank z : strip_forest z = [] -> (forall m, ~ In (TErr m) z) -> forall n, noted n z = [].
Proof.
  induction z as [|u z IH]; intros E N n; [reflexivity|]. change (u :: z) with ([u] ++ z) in E. rewrite strip_app in E. apply app_eq_nil in E as [E1 E2].
  destruct u as [k cs|k|m].
  - discriminate E1.
  - cbn [noted noted1 app]. apply IH; [exact E2|]. intros m H. apply (N m). right. exact H.
  - exfalso. apply (N m). left. reflexivity.
Qed.
Lemma prefixes {A} (a b c d : list A) : a ++ b = c ++ d -> exists z, a = c ++ z \/ c = a ++ z.
Proof.
  revert c. induction a as [|x a IH]; intros c E; [exists c; auto|]. destruct c as [|y c]; [exists (x :: a); auto|].
  cbn [app] in E. injection E as <- E. destruct (IH _ E) as (z & [-> | ->]); exists z; auto.
Qed.
Lemma strip_lead l : Forall (fun y => exists k, y = TTok k /\ is_trivia k = true) l -> strip_forest l = [] /\ forall n, noted n l = [].
Proof.
  induction 1 as [|y l (k & -> & K) _ [IH1 IH2]]; [split; reflexivity|]. split.
  - unfold strip_forest in *. cbn [flat_map strip_tree]. rewrite K, IH1. reflexivity.
  - intros n. cbn [noted noted1 app]. apply IH2.
Qed.

Lemma behind_correct t a b f g errs : token_stream t (a ++ b) -> ascii_strings t -> ascii_literals (a ++ b) -> tlen t < u32_bound ->
  ~ comment_in_the_way (a ++ b) -> ~ glued (a ++ b) -> gen File f -> Forall2 stands_for (flat_map leaves f) (proper a) ->
  N.of_nat (length (proper a)) <= 1970 -> proper a <> [] -> b <> [] -> is_trivia (cur_kind b) = false -> parse_text t = Ok (g, errs) ->
  exists gb errsb r, parse_text (concat (map snd b)) = Ok (gb, errsb) /\ strip gb = [TNode SOURCE_FILE r] /\ strip g = [TNode SOURCE_FILE (f ++ r)] /\
    Forall2 (fun e e' => se_msg e = se_msg e' /\ exists i, stands_after (a ++ b) (length (proper a) + i) e /\ stands_after b i e') errs errsb.
Proof.
  intros Ts As A Hs NC NG G F L Na Nb Tb PT.
  assert (F' : Forall2 stands_for (flat_map leaves f ++ opened_leaves []) (proper a)) by (cbn; rewrite app_nil_r; exact F).
  destruct (parse_before t (a ++ b) f [] (proper a) (proper b) g errs Ts As Hs NC NG G ltac:(constructor) ltac:(apply proper_app) F') as [(r & Er & _) _];
    [intros H; inversion H as [o [h is Hm Hi]| |]|exact L|exact PT|].
  destruct (rest_main t a b f r g errs Hs Ts A PT Er) as (gb & errsb & early & late & Pb & Eb & -> & _ & Fl & lx & n & u & s & x & y & HL & E & D & Ex & Sp); auto.
  { apply Forall2_len in F. exact F. }
  destruct (before_forest t (a ++ b) f (proper a) (proper b) lx n u s Ts As NC NG G ltac:(apply proper_app) F L HL E) as (lead & f' & D' & Ld).
  pose proof (den_inj _ _ _ D D') as Q. injection Q as Q. destruct (start_rel _ _ HL) as [k R0].
  destruct (root_no_error t _ _ _ _ _ R0 E) as (F2 & D2 & N2). pose proof (den_inj _ _ _ D D2) as Q2. injection Q2 as <-.
  destruct (strip_lead _ Ld) as [Sl Nl]. pose proof (gen_clean _ _ G) as C. destruct (clean_forest _ C) as [C1 _].
  assert (Nx : noted 0 x = []).
  { assert (Nc : forall n, noted n (lead ++ f) = []) by (intros j; rewrite noted_app, Nl, (noted_clean _ C); reflexivity).
    rewrite app_assoc in Q. destruct (prefixes _ _ _ _ Q) as (z & [-> | Ez]).
    - rewrite noted_app, Nc. cbn [app]. apply noted_blank.
      + rewrite !strip_app, Sl, C1 in Ex. cbn [app] in Ex. rewrite <- (app_nil_r f) in Ex at 2. apply app_inv_head in Ex. exact Ex.
      + intros m H. apply (N2 m). rewrite <- app_assoc. apply in_app_iff. right. apply in_app_iff. auto.
    - apply (noted_prefix _ z). rewrite <- Ez. apply Nc. }
  rewrite Nx in Sp. inversion Sp; subst. exists gb, errsb, r. auto.
Qed.
