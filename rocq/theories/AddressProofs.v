(** Only integers written with 0x become addresses. *)
From Coq Require Import String.
From Verif Require Import Base BaseProofs Kinds KindsProofs LexSpec TokenSet Lexer LexerRuns LexerProofs LexerStateProofs
  Parser Grammar Sink TreeSpec GreenSpec ParserLogic GrammarProofs SinkProofs ParseProofs SyntaxSpec ShapeProofs AcceptTop ParserTotal.
Local Open Scope N_scope.

(** ** Programs that turn nothing else into an address
    [hex]: the text of the current token is known to begin with 0x; [cur]: its
    kind, if known. *)
Definition hstep {B} (c : cmd B) (hex : bool) (cur : option kind) : (B -> bool -> option kind -> Prop) -> Prop :=
  match c in cmd B return (B -> bool -> option kind -> Prop) -> Prop with
  | CCurrent => fun K => forall x, K x hex (Some x)
  | CCurrentText => fun K => forall x, K x (starts_with x (`"0x")) cur
  | CDoBump k => fun K => (k = DIEM_ADDRESS -> hex = true \/ cur = Some DIEM_ADDRESS) /\ K tt false None
  | CNth n => fun K => forall x, K x hex (match n with O => Some x | _ => cur end)
  | CStart => fun K => forall x, K x hex cur
  | CError m => fun K => forall x, K x hex cur
  | CComplete m k => fun K => forall x, K x hex cur
  | CAbandon m => fun K => forall x, K x hex cur
  | CPrecede m => fun K => forall x, K x hex cur
  | CAssert b => fun K => forall x, K x hex cur
  end.
Fixpoint hx {A} (p : prog A) (hex : bool) (cur : option kind) : Prop :=
  match p with
  | Ret _ => True
  | Do c k => hstep c hex cur (fun b h c' => hx (k b) h c')
  | Call f k => forall b, hx (k b) false None
  end.
Definition sober {A} (p : prog A) : Prop := forall hex cur, hx p hex cur.

Lemma sober_ret {A} (a : A) : sober (Ret a).
Proof. intros h c. exact I. Qed.
Lemma hstep_mono {B} (c : cmd B) h u (P Q : B -> bool -> option kind -> Prop) :
  (forall b h' u', P b h' u' -> Q b h' u') -> hstep c h u P -> hstep c h u Q.
Proof. intros H. destruct c; cbn [hstep]; intros W; try (intros; apply H, W). destruct W. split; auto. Qed.
Lemma hx_bind {A B} (p : prog A) (q : A -> prog B) : (forall a, sober (q a)) -> forall h c, hx p h c -> hx (pbind p q) h c.
Proof.
  intros Q. induction p as [a|X c k IH|f k IH]; intros h u H; cbn [pbind hx] in *; [apply Q| |intros b; apply IH, H].
  eapply hstep_mono; [|exact H]. intros b h' u' K. apply IH, K.
Qed.
Lemma sober_bind {A B} (p : prog A) (q : A -> prog B) : sober p -> (forall a, sober (q a)) -> sober (pbind p q).
Proof. intros P Q h c. apply hx_bind; [exact Q|apply P]. Qed.
Lemma sober_call f : sober (call f).
Proof. intros h c b. exact I. Qed.
Definition neutral {B} (c : cmd B) : Prop := match c with CDoBump k => k <> DIEM_ADDRESS | _ => True end.
Lemma sober_do {B} (c : cmd B) : neutral c -> sober (do_ c).
Proof. intros N h u. destruct c; cbn in *; auto. Qed.
Lemma sober_bump_any : sober bump_any.
Proof.
  intros h u. cbn. intros k. destruct (kind_eqb k EOF); cbn; [exact I|]. split; [|exact I]. intros ->. right. reflexivity.
Qed.
Lemma sober_eat k : sober (eat k).
Proof.
  intros h u. cbn. intros x. destruct (kind_eqb x k) eqn:E; cbn; [|exact I]. apply kind_eqb_eq in E as ->.
  split; [|exact I]. intros ->. right. reflexivity.
Qed.
Lemma sober_address : sober bump_address.
Proof.
  intros h u. unfold bump_address. cbn [current do_ pbind hx hstep]. intros k. destruct (kind_eqb k IDENT).
  - revert h. generalize (Some k). intros u' h. apply hx_bind; [intros; apply sober_ret|]. cbn. intros x. destruct (kind_eqb x IDENT); cbn; [|intros; exact I].
    split; [discriminate|]. intros; exact I.
  - destruct (kind_eqb k INTEGER_NUMBER); cbn [pbind current_text do_ hx hstep]; [|exact I].
    intros x. destruct (starts_with x (`"0x")) eqn:E; cbn; [|exact I]. intros c. destruct (kind_eqb c EOF); cbn; [exact I|].
    split; [left; reflexivity|exact I].
Qed.

Ltac so := lazymatch goal with
  | |- sober bump_address => apply sober_address
  | |- sober (eat _) => apply sober_eat
  | |- sober bump_any => apply sober_bump_any
  | |- sober (pbind _ _) => apply sober_bind; [so | intro; so]
  | |- sober (Ret _) => apply sober_ret
  | |- sober (do_ _) => apply sober_do; try exact I; try discriminate
  | |- sober (call ?f) => exact (sober_call f)
  | |- sober (match ?x with _ => _ end) => destruct x; so
  | |- sober (let '_ := ?x in _) => destruct x; so
  | |- sober ?p => let p' := eval red in p in change (sober p'); cbv beta; so
  end.
Lemma sober_body f : sober (body f).
Proof.
  destruct f; cbn [body]; so.
Qed.
Lemma sober_root : sober root.
Proof. so. Qed.

(** ** Running them *)
Definition tok_kinds (evs : list event) : list kind :=
  flat_map (fun e => match e with EToken k _ => [k] | _ => [] end) evs.
Definition addressed (g : group) (k : kind) : Prop :=
  k = DIEM_ADDRESS -> fst (fst g) = DIEM_ADDRESS \/ exists r, snd (fst g) = `"0x" ++ r.
Record hinv (t : text) (s : pstate) : Prop := { hi : exists gs rest cur len,
  lx_inv t (ps_lexer s) (ungroup gs) rest cur len /\ Forall (fun g => Forall trivia_piece (snd g)) gs /\ Forall solid (tl gs) /\
  (gs <> [] -> is_trivia cur = false) /\ Forall2 addressed gs (tok_kinds (ps_events s)) }.
Definition knows (s : pstate) (hex : bool) (cur : option kind) : Prop :=
  (hex = true -> exists w, lx_current_text (ps_lexer s) = Ok w /\ starts_with w (`"0x") = true) /\
  (forall k, cur = Some k -> t_kind (lx_current (ps_lexer s)) = k).

Lemma knows_nothing s : knows s false None.
Proof. split; intros; discriminate. Qed.
Lemma tok_kinds_app a b : tok_kinds (a ++ b) = tok_kinds a ++ tok_kinds b.
Proof. apply flat_map_app. Qed.
Lemma tok_kinds_set es m k fp k' fp' : nth_error es m = Some (EStart k fp) -> tok_kinds (set_nth es m (EStart k' fp')) = tok_kinds es.
Proof.
  revert m. induction es as [|e es IH]; intros [|m] H; try discriminate H.
  - injection H as ->. reflexivity.
  - cbn [set_nth]. unfold tok_kinds in *. cbn [flat_map]. rewrite (IH m H). reflexivity.
Qed.
Lemma cur_text t lx ws rest k len w r : lx_inv t lx ws rest k len -> rest = w ++ r -> tlen w = len -> lx_current_text lx = Ok w.
Proof.
  intros I -> L. unfold lx_current_text.
  rewrite (li_text _ _ _ _ _ _ I), (li_end _ _ _ _ _ _ I), (li_start _ _ _ _ _ _ I), <- L.
  rewrite (steps_text _ _ _ (li_steps _ _ _ _ _ _ I)), app_assoc, <- tlen_app, slice_to_app. cbn [bind].
  rewrite slice_from_app. reflexivity.
Qed.
Lemma hinv_same t s s' : hinv t s -> ps_lexer s' = ps_lexer s -> tok_kinds (ps_events s') = tok_kinds (ps_events s) -> hinv t s'.
Proof. intros [H] L E. constructor. rewrite L, E. exact H. Qed.
Lemma knows_same s s' h c : knows s h c -> ps_lexer s' = ps_lexer s -> knows s' h c.
Proof. intros H L. unfold knows. rewrite L. exact H. Qed.

Lemma exec_hinv {B} t (c : cmd B) s b s' h u (K : B -> bool -> option kind -> Prop) :
  hinv t s -> knows s h u -> hstep c h u K -> exec c s = Ok (b, s') -> hinv t s' /\ exists h' u', knows s' h' u' /\ K b h' u'.
Proof.
  intros I N W E. destruct c; cbn [exec hstep] in *.
  - apply bind_ok in E as (u1 & _ & E). apply bind_ok in E as (u2 & _ & E). apply bind_ok in E as (tk & L & E). injection E as <- <-.
    split; [eapply hinv_same; eauto|]. do 2 eexists. split; [|apply W]. split; [exact (proj1 N)|]. intros k X.
    destruct n; [|exact (proj2 N k X)]. injection X as <-. cbn in L. injection L as <-. reflexivity.
  - injection E as <- <-. split; [exact I|]. do 2 eexists. split; [|apply W]. split; [exact (proj1 N)|]. intros k X. injection X as <-. reflexivity.
  - apply bind_ok in E as (w & L & E). injection E as <- <-. split; [exact I|]. do 2 eexists. split; [|apply W].
    split; [|exact (proj2 N)]. intros X. eauto.
  - injection E as <- <-. split; [eapply hinv_same; [exact I|reflexivity|]|].
    + cbn. rewrite tok_kinds_app. apply app_nil_r.
    + do 2 eexists. split; [|apply W]. exact (knows_same s _ _ _ N eq_refl).
  - apply bind_ok in E as (s1 & X & E). injection E as <- <-. unfold exec_do_bump in X. apply bind_ok in X as (lx & L & X).
    injection X as <-. destruct W as [W1 W2]. split; [|do 2 eexists; split; [apply knows_nothing|exact W2]].
    destruct I as [(gs & rest & cur & len & I & T & S & C & F)].
    destruct (bump_inv _ _ _ _ _ _ _ I L) as (w & tr & rest' & k' & len' & Lw & Tr & St & K' & I').
    constructor. exists (gs ++ [((cur, w), tr)]), rest', k', len'. cbn [ps_lexer ps_events].
    rewrite tok_kinds_app. cbn [tok_kinds flat_map app]. split; [|split; [|split; [|split]]].
    + unfold ungroup. rewrite flat_map_app. cbn [flat_map fst snd]. rewrite app_nil_r. exact I'.
    + apply Forall_app. split; [exact T|]. constructor; [exact Tr|constructor].
    + destruct gs as [|g gs]; [constructor|]. cbn [app tl] in *. apply Forall_app. split; [exact S|].
      constructor; [|constructor]. unfold solid. cbn [fst]. apply C. discriminate.
    + intros _. exact K'.
    + apply Forall2_app; [exact F|]. constructor; [|constructor]. intros X. cbn [fst snd]. destruct (W1 X) as [Y|Y].
      * right. destruct (proj1 N Y) as (w' & L' & P). inversion St; subst.
        rewrite (cur_text _ _ _ _ _ _ _ _ I eq_refl eq_refl) in L'. injection L' as <-. apply starts_with_spec in P. exact P.
      * left. rewrite <- (proj2 N _ Y). unfold lx_current. rewrite (li_tok _ _ _ _ _ _ I). reflexivity.
  - injection E as <- <-. split; [eapply hinv_same; [exact I|reflexivity|]|].
    + cbn. rewrite tok_kinds_app. apply app_nil_r.
    + do 2 eexists. split; [|apply W]. exact (knows_same s _ _ _ N eq_refl).
  - unfold exec_complete in E. destruct (nth_error (ps_events s) m) as [[k0 fp| | |]|] eqn:X; try discriminate E. injection E as <- <-.
    split; [eapply hinv_same; [exact I|reflexivity|]|].
    + cbn. rewrite tok_kinds_app, (tok_kinds_set _ _ _ _ _ _ X). apply app_nil_r.
    + do 2 eexists. split; [|apply W]. exact (knows_same s _ _ _ N eq_refl).
  - apply bind_ok in E as (s1 & X & E). injection E as <- <-. unfold exec_abandon in X.
    assert (Y : s1 = s \/ exists a, ps_events s = a ++ [tombstone] /\ s1 = with_events s a).
    { destruct (Nat.eqb_spec (S m) (length (ps_events s))) as [Z|_]; [|injection X as <-; auto]. right.
      destruct (nth_error (ps_events s) m) as [[[] [|]| | |]|] eqn:Y; try discriminate X. injection X as <-.
      exists (removelast (ps_events s)). split; [|reflexivity].
      destruct (exists_last (l := ps_events s)) as (a & e & Ea). { intros Q. rewrite Q in Z. discriminate Z. }
      rewrite Ea in *. rewrite removelast_last. rewrite app_length in Z. cbn in Z.
      rewrite nth_error_app2, (ltac:(lia) : (m - length a = 0)%nat) in Y by lia. injection Y as ->. reflexivity. }
    destruct Y as [-> |(a & Ea & ->)]; [split; [exact I|do 2 eexists; split; [exact N|apply W]]|].
    split; [eapply hinv_same; [exact I|reflexivity|]|do 2 eexists; split; [exact (knows_same s _ _ _ N eq_refl)|apply W]].
    cbn. rewrite Ea, tok_kinds_app. symmetry. apply app_nil_r.
  - unfold exec_precede in E. cbn [exec_start] in E. destruct (nth_error _ _) as [[k0 fp| | |]|] eqn:X; try discriminate E.
    apply bind_ok in E as (d & _ & E). injection E as <- <-.
    split; [eapply hinv_same; [exact I|reflexivity|]|do 2 eexists; split; [exact (knows_same s _ _ _ N eq_refl)|apply W]].
    cbn [ps_events with_events]. rewrite (tok_kinds_set _ _ _ _ _ _ X). cbn. rewrite tok_kinds_app. apply app_nil_r.
  - apply bind_ok in E as (u1 & _ & E). injection E as <- <-. split; [exact I|do 2 eexists; split; [exact N|apply W]].
Qed.

Lemma interp_hinv t rec : (forall f s b s', hinv t s -> rec f s = Ok (b, s') -> hinv t s') ->
  forall A (p : prog A) s h u a s', hinv t s -> knows s h u -> hx p h u -> interp rec p s = Ok (a, s') -> hinv t s'.
Proof.
  intros R A p. induction p as [a|B c k IH|f k IH]; intros s h u a' s' I N W E; cbn [interp hx] in *.
  - injection E as <- <-. exact I.
  - apply bind_ok in E as ([b s1] & E1 & E). destruct (exec_hinv _ _ _ _ _ _ _ _ I N W E1) as (I1 & h' & u' & N' & W').
    exact (IH b _ _ _ _ _ I1 N' W' E).
  - apply bind_ok in E as ([b s1] & E1 & E). exact (IH b _ _ _ _ _ (R _ _ _ _ I E1) (knows_nothing _) (W b) E).
Qed.
Lemma run_hinv t fuel : forall f s b s', hinv t s -> run fuel f s = Ok (b, s') -> hinv t s'.
Proof.
  induction fuel as [|fuel IH]; intros f s b s' I E; cbn [run] in E; [discriminate E|].
  exact (interp_hinv t _ IH _ _ _ _ _ _ _ I (knows_nothing s) (sober_body f _ _) E).
Qed.

(** ** The result *)
Lemma den_tokens evs f : den evs f -> tok_kinds evs = fleaves f.
Proof.
  apply (den_mut (fun evs f => tok_kinds evs = fleaves f) (fun i seg t _ => fleaves (opt_tree i) ++ tok_kinds seg = leaves t)).
  - reflexivity.
  - intros k s g _ IH. change (k :: tok_kinds s = k :: fleaves g). rewrite IH. reflexivity.
  - intros m s g _ IH. exact IH.
  - intros s g _ IH. exact IH.
  - intros n t off s g _ IHc _ IHd. rewrite tok_kinds_app, IHd. change (tok_kinds n = leaves t) in IHc. rewrite IHc. reflexivity.
  - intros i k s g _ _ IH. change (fleaves (opt_tree i) ++ tok_kinds (s ++ [EFinish]) = flat_map leaves (opt_tree i ++ g)).
    rewrite tok_kinds_app, IH, flat_map_app. cbn [tok_kinds flat_map]. rewrite app_nil_r. reflexivity.
  - intros i k s g seg t off _ _ IH _ IHc. rewrite <- IHc.
    change (fleaves (opt_tree i) ++ tok_kinds (s ++ EFinish :: seg) = flat_map leaves [TNode k (opt_tree i ++ g)] ++ tok_kinds seg).
    rewrite tok_kinds_app, IH. change (tok_kinds (EFinish :: seg)) with (tok_kinds seg).
    cbn [flat_map leaves]. rewrite app_nil_r, flat_map_app, <- app_assoc. reflexivity.
Qed.
Lemma steps_equal t a r : steps t a r -> forall b r', steps t b r' -> length a = length b -> a = b.
Proof.
  induction 1 as [t|k w t ws r F S IH]; intros b r' S2 L.
  - destruct b; [reflexivity|discriminate L].
  - destruct b as [|[k' w'] b]; [discriminate L|]. apply steps_cons_inv in S2 as (t' & E & F' & S2). rewrite F in F'. injection F' as <- El.
    assert (w = w') by (eapply (tlen_prefix_inj w t w' t'); auto). subst w'.
    apply app_inv_head in E. subst t'. f_equal. eapply IH; eauto.
Qed.
Lemma solid_groups gs gs' : Forall (fun g => Forall trivia_piece (snd g)) gs -> Forall (fun g => Forall trivia_piece (snd g)) gs' ->
  Forall solid gs -> Forall solid gs' -> forall a b, Forall trivia_piece a -> Forall trivia_piece b ->
  a ++ ungroup gs = b ++ ungroup gs' -> a = b /\ gs = gs'.
Proof.
  assert (H0 : forall g gs p r, solid g -> ungroup (g :: gs) = p :: r -> ~ trivia_piece p).
  { intros [p0 tr] gs0 p r S E T. rewrite ungroup_cons in E. injection E as <- _. unfold trivia_piece in T. unfold solid in S. cbn in *. congruence. }
  revert gs'. induction gs as [|[p tr] gs IH]; intros gs' T T' S S' a b A B E.
  - destruct gs' as [|g gs'].
    + cbn in E. rewrite !app_nil_r in E. auto.
    + exfalso. change (ungroup []) with (@nil (kind * text)) in E. rewrite app_nil_r in E. subst a. apply Forall_app in A as [_ A].
      inversion S'; subst. destruct (ungroup (g :: gs')) as [|q r] eqn:U; [rewrite ungroup_cons in U; discriminate U|].
      inversion A; subst. eapply H0; eauto.
  - destruct gs' as [|[p' tr'] gs'].
    + exfalso. change (ungroup []) with (@nil (kind * text)) in E. rewrite (app_nil_r b) in E. subst b. apply Forall_app in B as [_ B].
      inversion S; subst. rewrite ungroup_cons in B. cbn [fst snd] in B. inversion B; subst. unfold solid, trivia_piece in *. cbn in *. congruence.
    + inversion T; inversion T'; inversion S; inversion S'; subst. rewrite !ungroup_cons in E. cbn [fst snd] in *.
      assert (X : a = b /\ (p :: tr) ++ ungroup gs = (p' :: tr') ++ ungroup gs').
      { assert (P : is_trivia (fst p) = false) by assumption. assert (P' : is_trivia (fst p') = false) by assumption.
        clear - E P P' A B. revert b B E. induction A as [|x a X A IHa]; intros b B E.
        - destruct B as [|y b Y B]; [auto|]. cbn in E. injection E as -> _. unfold trivia_piece in Y. congruence.
        - destruct B as [|y b Y B]; [cbn in E; injection E as -> _; unfold trivia_piece in X; congruence|].
          cbn [app] in E. injection E as -> E. destruct (IHa _ B E) as [-> ?]. auto. }
      destruct X as [-> X]. cbn [app] in X. injection X as -> X.
      destruct (IH gs' ltac:(assumption) ltac:(assumption) ltac:(assumption) ltac:(assumption) tr tr' ltac:(assumption) ltac:(assumption) X) as [-> ->]. auto.
Qed.
Lemma same_groups gs gs' : Forall (fun g => Forall trivia_piece (snd g)) gs -> Forall (fun g => Forall trivia_piece (snd g)) gs' ->
  Forall solid (tl gs) -> Forall solid (tl gs') -> ungroup gs = ungroup gs' -> gs = gs'.
Proof.
  intros T T' S S' E. destruct gs as [|[p tr] gs], gs' as [|[p' tr'] gs']; try reflexivity; try (rewrite ungroup_cons in E; discriminate E).
  rewrite !ungroup_cons in E. cbn [fst snd app tl] in *. injection E as -> E. inversion T; inversion T'; subst. cbn [snd] in *.
  destruct (solid_groups gs gs' ltac:(assumption) ltac:(assumption) S S' tr tr' ltac:(assumption) ltac:(assumption) E) as [-> ->]. reflexivity.
Qed.

(** a leaf and its token *)
Definition written (k : kind) (p : kind * text) : Prop :=
  fst p = k \/ fst p = INTEGER_NUMBER /\ k = DIEM_ADDRESS /\ exists r, snd p = `"0x" ++ r.
Lemma strip_leaves : forall x, flat_map leaves (strip_tree x) = filter (fun k => negb (is_trivia k)) (leaves x).
Proof.
  induction x as [k cs IH|k|m] using tree_ind2; cbn [strip_tree flat_map leaves app].
  - rewrite app_nil_r. induction IH as [|c cs Hc _ IHc]; [reflexivity|]. cbn [flat_map]. rewrite flat_map_app, filter_app, Hc, IHc. reflexivity.
  - cbn [filter]. destruct (is_trivia k); reflexivity.
  - reflexivity.
Qed.
Lemma strips_leaves f : flat_map leaves (strip_forest f) = filter (fun k => negb (is_trivia k)) (fleaves f).
Proof.
  unfold strip_forest, fleaves. induction f as [|c f IH]; [reflexivity|]. cbn [flat_map]. rewrite flat_map_app, filter_app, strip_leaves, IH. reflexivity.
Qed.
Lemma proper_groups gs ks : Forall group_ok gs -> Forall2 (fun g k => remap (fst (fst g)) k) gs ks -> Forall2 addressed gs ks ->
  Forall2 written (filter (fun k => negb (is_trivia k)) ks) (proper (ungroup gs)).
Proof.
  unfold proper. intros G R A. revert G A. induction R as [|[[k0 w] tr] k gs ks R _ IH]; intros G A; [constructor|].
  inversion G as [|? ? [T _] G']; inversion A as [|? ? ? ? A1 A2]; subst. rewrite ungroup_cons. cbn [fst snd app filter] in *.
  assert (E : filter (fun p : kind * text => negb (is_trivia (fst p))) tr = []).
  { clear - T. induction T as [|p tr P _ IH]; [reflexivity|]. cbn [filter]. unfold trivia_piece in P. rewrite P. exact IH. }
  rewrite filter_app, E. cbn [app]. unfold addressed in A1. cbn [fst snd] in A1.
  destruct R as [-> |[-> ->]].
  - destruct (is_trivia k0); cbn [negb app]; [auto|]. constructor; [left; reflexivity|auto].
  - cbn [is_trivia negb app]. constructor; [|auto]. right. cbn [fst snd]. split; [reflexivity|]. split; [reflexivity|].
    destruct (A1 eq_refl) as [X|X]; [discriminate X|exact X].
Qed.

Lemma parse_addresses t g errs f : tlen t < u32_bound -> parse_text t = Ok (g, errs) -> strip g = [TNode SOURCE_FILE f] ->
  exists ws, steps t ws [] /\ Forall real ws /\ Forall2 written (flat_map leaves f) (proper ws).
Proof.
  intros Hs P Hf. unfold parse_text in P. apply bind_ok in P as (lx & HL & P). unfold parse_with_lexer in P.
  pose proof (grammar_sound t lx (parse_fuel (lx_text lx)) HL) as G.
  destruct (interp (run (parse_fuel (lx_text lx))) root (parser_new lx)) as [[u s]|w|] eqn:E; cbn [bind] in P; try discriminate P.
  destruct G as (F & gs & Pd). destruct (build_ok _ _ _ _ _ Hs Pd) as (g' & errs' & B & O).
  rewrite B in P. injection P as -> ->.
  exists (ungroup gs). split; [exact (ro_steps _ _ _ _ _ O)|]. split; [exact (ro_noeof _ _ _ _ _ O)|].
  assert (I0 : hinv t (parser_new lx)).
  { destruct (lexer_new_inv _ _ HL) as (k & len & I). constructor. exists [], t, k, len. cbn. repeat split; try (constructor; fail); try apply I. contradiction. }
  pose proof (interp_hinv t _ (run_hinv t _) _ _ _ _ _ _ _ I0 (knows_nothing _) (sober_root _ _) E) as [(gs' & rest & cur & len & I & T & S & _ & A)].
  rewrite (den_tokens _ _ (p_den _ _ _ _ _ Pd)) in A.
  assert (X : gs' = gs).
  { apply same_groups; [exact T| |exact S|exact (p_solid _ _ _ _ _ Pd)|].
    - eapply Forall_impl; [|exact (p_groups _ _ _ _ _ Pd)]. intros x [Y _]. exact Y.
    - eapply steps_equal; [exact (li_steps _ _ _ _ _ _ I)|exact (p_steps _ _ _ _ _ Pd)|].
      pose proof (li_all _ _ _ _ _ _ I) as Y. rewrite (p_toks _ _ _ _ _ Pd) in Y. apply (f_equal (@length _)) in Y.
      rewrite !app_length, !map_length in Y. cbn in Y. lia. }
  subst gs'. destruct (ro_root _ _ _ _ _ O) as (cs & -> & Sc). cbn [strip] in Hf. rewrite Sc in Hf. injection Hf as <-.
  rewrite strips_leaves. change (fleaves [TNode SOURCE_FILE F]) with (fleaves F ++ []) in A. rewrite app_nil_r in A.
  exact (proper_groups _ _ (p_groups _ _ _ _ _ Pd) (p_leaves _ _ _ _ _ Pd) A).
Qed.
Lemma no_address_token w : ~ lexeme DIEM_ADDRESS w.
Proof.
  intros H. inversion H as [| | | | | |w' k Hin| |w' k Hin]; subst; cbn in Hin;
    repeat match goal with H : _ \/ _ |- _ => destruct H as [H|H]; [discriminate H|] end; destruct Hin.
Qed.
Lemma written_stands t ws ks : token_stream t ws -> Forall2 written ks (proper ws) -> Forall2 stands_for ks (proper ws).
Proof.
  intros St. assert (N : Forall (fun p => fst p <> DIEM_ADDRESS) (proper ws)).
  { apply Forall_forall. intros p I. apply filter_In in I as [I _]. revert p I. induction St as [|k w rest ws L M S IH]; intros p I; [destruct I|].
    destruct I as [<- |I]; [|auto]. cbn. intros ->. exact (no_address_token _ L). }
  intros H. revert N. induction H as [|k p ks ps W _ IH]; intros N; constructor; inversion N; subst; auto.
  destruct W as [W|(W & -> & r & E)]; [|split; eauto]. subst k. destruct p as [[] w]; try reflexivity. cbn in *. congruence.
Qed.
