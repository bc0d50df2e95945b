(** The tree sink builds the tree it is told to build, over the whole text. *)
From Verif Require Import Base BaseProofs Kinds KindsProofs Lexer LexerProofs LexerStateProofs
  Parser Grammar Sink TreeSpec GreenSpec ParserLogic ProcessProofs.
Local Open Scope N_scope.

Notation piece := (kind * text)%type.
Definition gtok (p : piece) : green := GTok (fst p) (snd p).

Fixpoint strip_tree (t : tree) : list tree :=
  match t with
  | TNode k cs => [TNode k (flat_map strip_tree cs)]
  | TTok k => if is_trivia k then [] else [TTok k]
  | TErr _ => []
  end.
Definition strip_forest (f : forest) : forest := flat_map strip_tree f.
Fixpoint errs1 (t : tree) : list text :=
  match t with
  | TNode _ cs => flat_map errs1 cs
  | TTok _ => []
  | TErr m => [m]
  end.

Section Tree_ind.
  Variable P : tree -> Prop.
  Hypothesis Hn : forall k cs, Forall P cs -> P (TNode k cs).
  Hypothesis Ht : forall k, P (TTok k).
  Hypothesis He : forall m, P (TErr m).
  Fixpoint tree_ind2 (t : tree) : P t :=
    match t with
    | TNode k cs => Hn k cs ((fix go (l : list tree) : Forall P l :=
        match l with [] => Forall_nil _ | x :: r => Forall_cons _ (tree_ind2 x) (go r) end) cs)
    | TTok k => Ht k
    | TErr m => He m
    end.
End Tree_ind.

Lemma ascending_app lo l1 mid l2 hi : ascending lo l1 mid -> ascending mid l2 hi -> ascending lo (l1 ++ l2) hi.
Proof.
  revert lo. induction l1 as [|x l1 IH]; intros lo H1 H2; cbn [ascending app] in *.
  - destruct l2 as [|y l2]; cbn [ascending] in *; [lia|]. split; [lia|apply H2].
  - split; [apply H1|]. apply IH; [apply H1|exact H2].
Qed.
Lemma ascending_le lo l hi : ascending lo l hi -> lo <= hi.
Proof. revert lo; induction l as [|x l IH]; intros lo H; cbn in H; [exact H|]. destruct H as [H1 H2]. apply IH in H2. lia. Qed.
Lemma ascending_hi lo l hi hi' : ascending lo l hi -> hi <= hi' -> ascending lo l hi'.
Proof.
  revert lo; induction l as [|x l IH]; intros lo H E; cbn in *; [lia|]. split; [apply H|]. apply IH; [apply H|exact E].
Qed.
Lemma ascending_lo lo lo' l hi : ascending lo l hi -> lo' <= lo -> ascending lo' l hi.
Proof. destruct l as [|x l]; cbn; intros H E; [lia|]. split; [lia|apply H]. Qed.

Section Sinks.
Variable t : text.
Variable ws : list piece.
Hypothesis Ht : pieces ws = t.
Hypothesis Hsmall : tlen t < u32_bound.
Let tokens := map tok_of ws ++ [token_new EOF 0].

Definition at_pos (s : sink) (before : list piece) : Prop :=
  sk_token_pos s = length before /\ sk_text_pos s = tlen (pieces before).

Lemma ws_small before p after : ws = before ++ p :: after ->
  t = pieces before ++ snd p ++ pieces after /\ tok_of p = Tok (fst p) (tlen (snd p)) /\
  tlen (pieces before) + tlen (snd p) < u32_bound.
Proof.
  intros E. assert (Et : t = pieces before ++ snd p ++ pieces after).
  { rewrite <- Ht, E, pieces_app. reflexivity. }
  assert (Hl : tlen (pieces before) + tlen (snd p) < u32_bound).
  { assert (tlen t = tlen (pieces before) + (tlen (snd p) + tlen (pieces after))) by (rewrite Et, !tlen_app; reflexivity). lia. }
  split; [exact Et|]. split; [|exact Hl]. unfold tok_of. apply token_new_small. lia.
Qed.

(** [s'] is [s] after more tokens: children [g] added. *)
Definition moved (s s' : sink) (before : list piece) (g : list green) : Prop :=
  at_pos s' before /\ sk_state s' = sk_state s /\ sk_errors s' = sk_errors s /\
  b_parents (sk_inner s') = b_parents (sk_inner s) /\ b_children (sk_inner s') = b_children (sk_inner s) ++ g.

Lemma moved_trans s s1 s2 b1 b2 g1 g2 : moved s s1 b1 g1 -> moved s1 s2 b2 g2 -> moved s s2 b2 (g1 ++ g2).
Proof.
  intros (A1 & A2 & A3 & A4 & A5) (B1 & B2 & B3 & B4 & B5). split; [exact B1|].
  split; [congruence|]. split; [congruence|]. split; [congruence|]. rewrite B5, A5, <- app_assoc. reflexivity.
Qed.

Lemma do_token_ok s before p after k : ws = before ++ p :: after -> at_pos s before ->
  exists s', do_token t s k (tlen (snd p)) 1 = Ok s' /\ moved s s' (before ++ [p]) [GTok k (snd p)].
Proof.
  intros E [P1 P2]. destruct (ws_small _ _ _ E) as (Et & _ & Hl). unfold do_token, u32_add.
  rewrite P2, (proj2 (N.ltb_lt _ _) Hl). cbn [bind].
  assert (H1 : slice_to t (tlen (pieces before) + tlen (snd p)) = Ok (pieces before ++ snd p)).
  { unfold slice_to. rewrite Et at 1. rewrite app_assoc, <- tlen_app, split_at_app. reflexivity. }
  rewrite H1. cbn [bind].
  assert (H2 : slice_from (pieces before ++ snd p) (tlen (pieces before)) = Ok (snd p)).
  { unfold slice_from. rewrite split_at_app. reflexivity. }
  rewrite H2. cbn [bind]. eexists. split; [reflexivity|].
  unfold moved, at_pos. cbn [sk_token_pos sk_text_pos sk_state sk_errors sk_inner b_token b_parents b_children].
  rewrite P1, app_length, pieces_app, tlen_app. unfold pieces at 3. cbn [map concat length].
  rewrite app_nil_r. auto.
Qed.

Lemma tokens_at before after : ws = before ++ after ->
  skipn (length before) tokens = map tok_of after ++ [token_new EOF 0].
Proof.
  intros E. unfold tokens. rewrite E, map_app, <- app_assoc.
  rewrite skipn_app, map_length, Nat.sub_diag. rewrite skipn_all2 by (rewrite map_length; lia). reflexivity.
Qed.
Lemma token_at before p after : ws = before ++ p :: after ->
  nth_error tokens (length before) = Some (tok_of p).
Proof.
  intros E. unfold tokens. rewrite E, map_app, <- app_assoc.
  rewrite nth_error_app2, map_length, Nat.sub_diag by (rewrite map_length; lia). reflexivity.
Qed.

Definition head_solid (l : list piece) : Prop := match l with [] => True | p :: _ => is_trivia (fst p) = false end.

Lemma eat_trivias_ok tr : forall s before after, ws = before ++ tr ++ after -> at_pos s before ->
  Forall trivia_piece tr -> head_solid after ->
  exists s', eat_trivias_from t (map tok_of (tr ++ after) ++ [token_new EOF 0]) s = Ok s' /\
    moved s s' (before ++ tr) (map gtok tr).
Proof.
  induction tr as [|p tr IH]; intros s before after E P F H.
  - exists s. cbn [app map]. rewrite app_nil_r. unfold moved. rewrite app_nil_r. split; [|auto 6].
    destruct after as [|q after]; [reflexivity|]. cbn [app map eat_trivias_from].
    unfold tok_of. rewrite kind_trunc. cbn [head_solid] in H. rewrite H. reflexivity.
  - inversion F as [|x y Hp Hr]; subst x y. cbn [app] in E.
    destruct (do_token_ok s before p (tr ++ after) (fst p) E P) as (s1 & D1 & M1).
    destruct (IH s1 (before ++ [p]) after) as (s2 & D2 & M2); auto.
    { rewrite <- app_assoc. exact E. }
    { apply M1. }
    exists s2. split.
    + cbn [app map eat_trivias_from]. destruct (ws_small _ _ _ E) as (_ & Htok & _). rewrite Htok.
      cbn [t_kind t_len]. unfold trivia_piece in Hp. rewrite Hp, D1. exact D2.
    + rewrite <- app_assoc in M2. pose proof (moved_trans _ _ _ _ _ _ _ M1 M2) as M. exact M.
Qed.

Lemma eat_n_trivias_ok tr : forall s before after, ws = before ++ tr ++ after -> at_pos s before ->
  Forall trivia_piece tr ->
  exists s', eat_n_trivias t tokens (length tr) s = Ok s' /\ moved s s' (before ++ tr) (map gtok tr).
Proof.
  induction tr as [|p tr IH]; intros s before after E P F.
  - exists s. rewrite app_nil_r. unfold moved. cbn [map]. rewrite app_nil_r. auto 8.
  - inversion F as [|x y Hp Hr]; subst x y. cbn [app] in E.
    destruct (do_token_ok s before p (tr ++ after) (fst p) E P) as (s1 & D1 & M1).
    destruct (IH s1 (before ++ [p]) after) as (s2 & D2 & M2); auto.
    { rewrite <- app_assoc. exact E. }
    { apply M1. }
    exists s2. split.
    + cbn [length eat_n_trivias]. rewrite (proj1 P), (token_at _ _ _ E). cbn [index bind].
      destruct (ws_small _ _ _ E) as (_ & Htok & _). rewrite Htok.
      cbn [t_kind t_len]. unfold trivia_piece in Hp. rewrite Hp. cbn [assert_ bind]. rewrite D1. exact D2.
    + rewrite <- app_assoc in M2. pose proof (moved_trans _ _ _ _ _ _ _ M1 M2) as M. exact M.
Qed.

Lemma count_ok tr after : Forall trivia_piece tr -> head_solid after ->
  count_trivias (map tok_of (tr ++ after) ++ [token_new EOF 0]) = length tr.
Proof.
  induction tr as [|p tr IH]; intros F H.
  - destruct after as [|q after]; [reflexivity|]. cbn [app map count_trivias length].
    unfold tok_of. rewrite kind_trunc. cbn [head_solid] in H. rewrite H. reflexivity.
  - inversion F as [|x y Hp Hr]; subst x y. cbn [app map count_trivias length]. unfold tok_of at 1. rewrite kind_trunc.
    unfold trivia_piece in Hp. rewrite Hp. f_equal. auto.
Qed.

(** The state of the sink between calls: [tr] is trivia not yet in the tree,
    [gs] the groups to come, [ps] and [cs] the builder after the pending finish. *)
Record view (s : sink) (tr : list piece) (gs : list group) (ps : list (kind * nat)) (cs : list green)
    (errs : list syntax_error) (before : list piece) : Prop := {
  v_started : sk_state s <> PendingStart;
  v_flush : exists s0, flush s = Ok s0 /\ sk_state s0 = Normal /\ at_pos s0 before /\ sk_errors s0 = errs /\
    b_parents (sk_inner s0) = ps /\ b_children (sk_inner s0) = cs;
  v_ws : ws = before ++ tr ++ ungroup gs;
  v_first : before = [] -> tr = [];
  v_tr : Forall trivia_piece tr;
  v_solid : Forall solid gs;
  v_groups : Forall group_ok gs
}.

Lemma flush_pos s s0 : flush s = Ok s0 -> sk_text_pos s0 = sk_text_pos s /\ sk_token_pos s0 = sk_token_pos s /\
  sk_errors s0 = sk_errors s.
Proof.
  unfold flush. destruct (sk_state s); try (intros E; injection E as <-; cbn; auto).
  intros E. apply bind_ok in E as (b & _ & E). injection E as <-. cbn. auto.
Qed.

Lemma solid_head gs : Forall solid gs -> head_solid (ungroup gs).
Proof. intros H. destruct H as [|[[k w] tr] gs H _]; [exact I|]. exact H. Qed.

Definition boundary (n : N) : Prop := exists a b, ws = a ++ b /\ n = tlen (pieces a).

(** Trivia stand between the children of every node; [tr] was pending before
    the children [g] were made, and [tr'] is pending after them. *)
Definition all_tight (x : green) : Prop := forall k cs, inside (GNode k cs) x -> tight cs.
Definition neat (tr : list piece) (g : list green) (tr' : list piece) : Prop :=
  Forall all_tight g /\ (forall r x, g = r ++ [x] -> not_trivia x) /\
  (tr = [] -> (forall x r, g = x :: r -> not_trivia x) /\
     (forall p r, flat_map gleaves g = p :: r -> is_trivia (fst p) = false) /\ (flat_map gleaves g = [] -> tr' = [])).
Lemma tok_tight k w : all_tight (GTok k w).
Proof. intros k' cs H. inversion H. Qed.
Lemma toks_tight tr : Forall all_tight (map gtok tr).
Proof. apply Forall_forall. intros x H. apply in_map_iff in H as (p & <- & _). apply tok_tight. Qed.
Lemma node_tight k cs : tight cs -> Forall all_tight cs -> all_tight (GNode k cs).
Proof.
  intros T F k' cs' H. inversion H as [|? ? c I J]; subst; [exact T|]. rewrite Forall_forall in F. exact (F c I _ _ J).
Qed.
Lemma last_split {A} (a : list A) x r y : a ++ [x] = r ++ [y] -> x = y.
Proof. intros H. apply app_inj_tail in H. apply H. Qed.
Lemma neat_nil tr : neat tr [] tr.
Proof.
  split; [constructor|]. split; [intros r x H; destruct r; discriminate|]. intros ->. repeat split; discriminate.
Qed.
Lemma neat_app tr g1 tr1 g2 tr2 : neat tr g1 tr1 -> neat tr1 g2 tr2 -> neat tr (g1 ++ g2) tr2.
Proof.
  intros (A1 & A2 & A3) (B1 & B2 & B3). split; [apply Forall_app; auto|]. split.
  - intros r x H. destruct g2 as [|y g2] using rev_ind.
    + rewrite app_nil_r in H. eauto.
    + rewrite app_assoc in H. apply last_split in H as <-. eauto.
  - intros T. destruct (A3 T) as (C1 & C2 & C3). destruct (flat_map gleaves g1) as [|q l] eqn:E.
    + destruct (B3 (C3 eq_refl)) as (D1 & D2 & D3). rewrite flat_map_app, E. split; [|auto].
      intros x r H. destruct g1 as [|y g1]; [eauto|]. injection H as <- _. eauto.
    + rewrite flat_map_app, E. split; [|split; [|discriminate]].
      * intros x r H. destruct g1 as [|y g1]; [discriminate|]. injection H as <- _. eauto.
      * intros p r H. injection H as <- _. eauto.
Qed.
Lemma neat_tok tr k w tr' : is_trivia k = false -> neat tr (map gtok tr ++ [GTok k w]) tr'.
Proof.
  intros S. split; [apply Forall_app; split; [apply toks_tight|constructor; [apply tok_tight|constructor]]|]. split.
  - intros r x H. apply last_split in H as <-. exact S.
  - intros ->. cbn. split; [intros x r H; injection H as <- _; exact S|]. split; [intros p r H; injection H as <- _; exact S|discriminate].
Qed.
Lemma neat_node tr k g tr' : neat [] g tr' -> neat tr (map gtok tr ++ [GNode k g]) tr'.
Proof.
  intros (A1 & A2 & A3). destruct (A3 eq_refl) as (C1 & C2 & C3).
  split; [apply Forall_app; split; [apply toks_tight|constructor; [apply node_tight; [split; auto|exact A1]|constructor]]|]. split.
  - intros r x H. apply last_split in H as <-. exact I.
  - intros ->. cbn [map app flat_map gleaves]. rewrite app_nil_r.
    split; [intros x r H; injection H as <- _; exact I|]. auto.
Qed.

(** Where errors are: the number of tokens in front, and next to a token. *)
Definition count (l : list piece) : nat := length (filter (fun p => negb (is_trivia (fst p))) l).
Definition ends_solid (l : list piece) : Prop := exists a p, l = a ++ [p] /\ is_trivia (fst p) = false.
Definition spot (e : syntax_error) (m : text * nat) : Prop := se_msg e = fst m /\
  exists a b, ws = a ++ b /\ se_pos e = tlen (pieces a) /\ count a = snd m /\ (ends_solid a \/ head_solid b).
Definition edge (before tr : list piece) : Prop := tr = [] \/ ends_solid before.
Definition late (f : forest) : Prop := forall m r, f <> TErr m :: r.
Definition placed (before tr : list piece) (f : forest) (es : list syntax_error) (before' tr' : list piece) : Prop :=
  count before' = (count before + length (solid_leaves f))%nat /\
  (edge before tr \/ late f -> (f = [] \/ edge before' tr') /\ Forall2 spot es (noted (count before) f)).
Lemma count_app a b : count (a ++ b) = (count a + count b)%nat.
Proof. unfold count. rewrite filter_app, app_length. reflexivity. Qed.
Lemma count_trivia tr : Forall trivia_piece tr -> count tr = 0%nat.
Proof.
  induction 1 as [|p tr H _ IH]; [reflexivity|]. unfold count in *. cbn [filter]. unfold trivia_piece in H. rewrite H. exact IH.
Qed.
Lemma solid_leaves_app a b : solid_leaves (a ++ b) = solid_leaves a ++ solid_leaves b.
Proof. unfold solid_leaves. rewrite flat_map_app, filter_app. reflexivity. Qed.
Lemma noted1_node n k f : noted1 n (TNode k f) = noted n f.
Proof. reflexivity. Qed.
Lemma placed_nil before tr : placed before tr [] [] before tr.
Proof. split; [symmetry; apply Nat.add_0_r|]. intros _. split; [auto|constructor]. Qed.
Lemma placed_cons before tr x e1 b1 tr1 f e2 b2 tr2 : placed before tr [x] e1 b1 tr1 -> placed b1 tr1 f e2 b2 tr2 ->
  (f = [] -> edge b1 tr1 -> edge b2 tr2) -> placed before tr (x :: f) (e1 ++ e2) b2 tr2.
Proof.
  intros [A1 A2] [B1 B2] Same. split.
  - rewrite B1, A1. change (x :: f) with ([x] ++ f). rewrite solid_leaves_app, app_length. lia.
  - intros H. destruct A2 as [[X|A2] A3].
    + destruct H as [H|H]; [auto|]. right. intros m r E. injection E as ->. exact (H m f eq_refl).
    + discriminate X.
    + destruct B2 as [B2 B3]; [auto|]. split.
      * right. destruct B2 as [->|]; auto.
      * cbn [noted]. cbn [noted] in A3. rewrite app_nil_r in A3. rewrite A1 in B3. apply Forall2_app; assumption.
Qed.

Definition good (f : forest) : Prop := forall s tr gs1 gs2 ps cs errs before,
  view s tr (gs1 ++ gs2) ps cs errs before ->
  Forall2 (fun g k => remap (fst (fst g)) k) gs1 (fleaves f) ->
  exists s' tr' g es before', sink_run t tokens s (flat f) = Ok s' /\
    view s' tr' gs2 ps (cs ++ g) (errs ++ es) before' /\
    flat_map strip g = strip_forest f /\
    (exists used, before' = before ++ used /\ Forall2 shows (flat_map gleaves g) used) /\
    map se_msg es = flat_map errs1 f /\
    ascending (tlen (pieces before)) (map se_pos es) (tlen (pieces before')) /\
    Forall (fun e => boundary (se_pos e)) es /\ neat tr g tr' /\
    placed before tr f es before' tr' /\ (f = [] -> before' = before /\ tr' = tr).

Lemma shows_refl p : shows p p.
Proof. split; auto. Qed.
Lemma shows_refls l : Forall2 shows l l.
Proof. induction l; constructor; auto using shows_refl. Qed.

Lemma run_app cs1 : forall s cs2, sink_run t tokens s (cs1 ++ cs2) = let! s' := sink_run t tokens s cs1 in sink_run t tokens s' cs2.
Proof.
  induction cs1 as [|c cs1 IH]; intros s cs2; cbn [app sink_run bind]; [reflexivity|].
  destruct (sink_call1 t tokens s c) as [s'| |]; cbn [bind]; auto.
Qed.

Lemma good_nil : good [].
Proof.
  intros s tr gs1 gs2 ps cs errs before V F. inversion F; subst. exists s, tr, [], [], before.
  cbn [sink_run flat flat_map]. rewrite !app_nil_r. cbn [app map ungroup flat_map].
  split; [reflexivity|]. split; [exact V|]. split; [reflexivity|]. split; [exists []; rewrite app_nil_r; split; constructor|].
  split; [reflexivity|]. split; [cbn; lia|]. split; [constructor|]. split; [apply neat_nil|]. split; [apply placed_nil|auto].
Qed.

Lemma good_cons x b : good [x] -> good b -> good (x :: b).
Proof.
  set (a := [x]). change (x :: b) with (a ++ b).
  intros Ga Gb s tr gs1 gs2 ps cs errs before V F. rewrite fleaves_app in F.
  apply Forall2_app_inv_r in F as (ga & gb & Fa & Fb & ->). rewrite <- app_assoc in V.
  destruct (Ga _ _ _ _ _ _ _ _ V Fa) as (s1 & tr1 & g1 & e1 & b1 & R1 & V1 & S1 & L1 & M1 & A1 & B1 & N1 & P1 & _).
  destruct (Gb _ _ _ _ _ _ _ _ V1 Fb) as (s2 & tr2 & g2 & e2 & b2 & R2 & V2 & S2 & L2 & M2 & A2 & B2 & N2 & P2 & Z2).
  exists s2, tr2, (g1 ++ g2), (e1 ++ e2), b2.
  split; [rewrite flat_app, run_app, R1; exact R2|].
  split; [rewrite !app_assoc; exact V2|].
  split; [unfold strip_forest; rewrite !flat_map_app, S1, S2; reflexivity|].
  split.
  - destruct L1 as (u1 & -> & L1). destruct L2 as (u2 & -> & L2). exists (u1 ++ u2).
    rewrite app_assoc, flat_map_app. split; [reflexivity|]. apply Forall2_app; auto.
  - split; [rewrite map_app, flat_map_app, M1, M2; reflexivity|].
    split; [rewrite map_app; eapply ascending_app; eauto|]. split; [apply Forall_app; auto|]. split; [eapply neat_app; eauto|].
    split; [|discriminate]. eapply placed_cons; eauto. intros E. destruct (Z2 E) as [-> ->]. auto.
Qed.

Lemma good_forest f : Forall (fun x => good [x]) f -> good f.
Proof.
  induction 1 as [|x f Hx _ IH]; [apply good_nil|]. apply good_cons; auto.
Qed.

Lemma good_err m : good [TErr m].
Proof.
  intros s tr gs1 gs2 ps cs errs before V F. inversion F; subst.
  pose proof (v_started _ _ _ _ _ _ _ V) as V0. destruct (v_flush _ _ _ _ _ _ _ V) as (s0 & Fl & St & At & Er & Pa & Ch).
  pose proof (flush_pos _ _ Fl) as (Q1 & Q2 & Q3).
  exists (sink_error s m), tr, [], [SyntaxError m (sk_text_pos s)], before.
  assert (Hpos : sk_text_pos s = tlen (pieces before)) by (rewrite <- Q1; apply At).
  split; [reflexivity|]. split.
  - constructor.
    + exact V0.
    + unfold sink_error, flush in *. cbn [sk_state sk_inner].
      destruct (sk_state s).
      * congruence.
      * injection Fl as <-. eexists. split; [reflexivity|]. cbn in *. rewrite app_nil_r, Er. auto 8.
      * apply bind_ok in Fl as (b & Fb & E). injection E as <-. rewrite Fb. cbn [bind].
        eexists. split; [reflexivity|]. cbn in *. rewrite app_nil_r, Er. auto 8.
    + apply (v_ws _ _ _ _ _ _ _ V).
    + apply (v_first _ _ _ _ _ _ _ V).
    + apply (v_tr _ _ _ _ _ _ _ V).
    + apply (v_solid _ _ _ _ _ _ _ V).
    + apply (v_groups _ _ _ _ _ _ _ V).
  - split; [reflexivity|]. split; [exists []; rewrite app_nil_r; split; [reflexivity|constructor]|].
    split; [reflexivity|]. cbn [map se_pos ascending]. split; [lia|].
    split; [|split; [apply neat_nil|split; [|discriminate]]].
    + constructor; [|constructor]. cbn [se_pos]. exists before, (tr ++ ungroup ([] ++ gs2)).
      split; [apply (v_ws _ _ _ _ _ _ _ V)|exact Hpos].
    + split; [cbn; lia|]. intros [E|E]; [|exfalso; exact (E m [] eq_refl)]. split; [auto|].
      constructor; [|constructor]. split; [reflexivity|]. exists before, (tr ++ ungroup ([] ++ gs2)).
      split; [apply (v_ws _ _ _ _ _ _ _ V)|]. split; [exact Hpos|]. split; [reflexivity|].
      destruct E as [->|E]; [right; apply solid_head; exact (v_solid _ _ _ _ _ _ _ V)|left; exact E].
Qed.

(** Taking the pending trivia. *)
Lemma eat_view s0 before tr gs : ws = before ++ tr ++ ungroup gs -> (before = [] -> tr = []) ->
  Forall trivia_piece tr -> Forall solid gs -> at_pos s0 before ->
  exists s1, (if Nat.eqb (sk_token_pos s0) 0 then Ok s0 else eat_trivias t tokens s0) = Ok s1 /\
    moved s0 s1 (before ++ tr) (map gtok tr).
Proof.
  intros E Hf Tr So At. destruct before as [|b0 before].
  - rewrite (Hf eq_refl). exists s0. rewrite (proj1 At). split; [reflexivity|].
    unfold moved. cbn [map]. rewrite !app_nil_r. auto 6.
  - set (bs := b0 :: before) in *. assert (Z : Nat.eqb (sk_token_pos s0) 0 = false) by (rewrite (proj1 At); reflexivity).
    rewrite Z. unfold eat_trivias. rewrite (proj1 At), (tokens_at bs (tr ++ ungroup gs) E).
    apply (eat_trivias_ok tr s0 bs (ungroup gs)); auto. apply solid_head. exact So.
Qed.

Lemma solid_kind k0 k : remap k0 k -> is_trivia k0 = false -> is_trivia k = false.
Proof. intros [-> | [-> ->]]; auto. Qed.

Lemma gtok_leaves tr : flat_map gleaves (map gtok tr) = tr.
Proof. induction tr as [|[k w] tr IH]; [reflexivity|]. cbn. rewrite IH. reflexivity. Qed.
Lemma gtok_strip tr : Forall trivia_piece tr -> flat_map strip (map gtok tr) = [].
Proof.
  induction 1 as [|[k w] tr H _ IH]; [reflexivity|]. cbn. unfold trivia_piece in H. cbn in H. rewrite H, IH. reflexivity.
Qed.

Lemma normal_flush s : sk_state s = Normal -> flush s = Ok s.
Proof. destruct s. cbn. intros ->. reflexivity. Qed.

(** one token: the group [g] *)
Lemma token_step s0 before p after k : ws = before ++ p :: after -> at_pos s0 before ->
  exists s1, (let! _ := (if Nat.leb (sk_token_pos s0 + 1) (length tokens) then Ok tt else Panic PIndex) in
              let! len := sum_len (firstn 1 (skipn (sk_token_pos s0) tokens)) in
              do_token t s0 k len 1) = Ok s1 /\ moved s0 s1 (before ++ [p]) [GTok k (snd p)].
Proof.
  intros E At. destruct (do_token_ok s0 before p after k E At) as (s1 & D & M). exists s1. split; [|exact M].
  destruct (ws_small _ _ _ E) as (_ & Htok & Hl).
  assert (L : (sk_token_pos s0 + 1 <= length tokens)%nat).
  { rewrite (proj1 At). unfold tokens. rewrite app_length, map_length, E, app_length. cbn [length]. lia. }
  rewrite (proj2 (Nat.leb_le _ _) L). cbn [bind].
  rewrite (proj1 At), (tokens_at before (p :: after) E). cbn [map app firstn]. rewrite Htok.
  cbn [sum_len t_len bind]. unfold u32_add at 1. rewrite N.add_0_r.
  assert (Hp : tlen (snd p) <? u32_bound = true) by (apply N.ltb_lt; lia). rewrite Hp. cbn [bind].
  exact D.
Qed.

Lemma good_tok k : good [TTok k].
Proof.
  intros s tr gs1 gs2 ps cs errs before V F. cbn in F.
  destruct gs1 as [|g [|g2 gs1]]; [inversion F| |inversion F as [|? ? ? ? ? F']; inversion F'].
  assert (Hr : remap (fst (fst g)) k) by (inversion F; assumption). clear F. cbn [app] in V.
  pose proof (v_started _ _ _ _ _ _ _ V) as V0. destruct (v_flush _ _ _ _ _ _ _ V) as (s0 & Fl & St & At & Er & Pa & Ch).
  pose proof (v_ws _ _ _ _ _ _ _ V) as W. pose proof (v_solid _ _ _ _ _ _ _ V) as So.
  pose proof (v_groups _ _ _ _ _ _ _ V) as Gr. pose proof (v_tr _ _ _ _ _ _ _ V) as Tr.
  destruct (eat_view s0 before tr (g :: gs2) W (v_first _ _ _ _ _ _ _ V) Tr So At) as (s1 & D1 & M1).
  destruct g as [p tr2]. cbn [ungroup flat_map fst snd app] in *.
  assert (W2 : ws = (before ++ tr) ++ p :: tr2 ++ ungroup gs2) by (rewrite <- app_assoc; exact W).
  destruct (token_step s1 (before ++ tr) p _ k W2 (proj1 M1)) as (s2 & D2 & M2).
  pose proof (moved_trans _ _ _ _ _ _ _ M1 M2) as (A1 & A2 & A3 & A4 & A5).
  inversion So as [|x y So1 So2]; subst x y. inversion Gr as [|x y Gr1 Gr2]; subst x y.
  exists s2, tr2, (map gtok tr ++ [GTok k (snd p)]), [], ((before ++ tr) ++ [p]).
  assert (St2 : sk_state s2 = Normal) by congruence.
  split; [|split; [|split; [|split; [|split; [|split; [|split; [|split; [|split; [|discriminate]]]]]]]]].
  - cbn [flat flat_map flat1 app sink_run sink_call1]. unfold sink_token.
    destruct (sk_state s); [congruence| |]; rewrite Fl; cbn [bind]; rewrite D1; cbn [bind]; rewrite D2; reflexivity.
  - constructor.
    + rewrite St2. discriminate.
    + exists s2. split; [apply normal_flush; exact St2|]. split; [exact St2|]. split; [exact A1|].
      rewrite app_nil_r. split; [congruence|]. split; [congruence|]. rewrite A5, Ch. reflexivity.
    + rewrite <- app_assoc. exact W2.
    + intros X. apply app_eq_nil in X as [_ X]. discriminate.
    + exact (proj1 Gr1).
    + exact So2.
    + exact Gr2.
  - rewrite flat_map_app, gtok_strip by exact Tr. cbn [flat_map strip app]. unfold strip_forest.
    cbn [flat_map strip_tree]. reflexivity.
  - exists (tr ++ [p]). rewrite app_assoc. split; [reflexivity|].
    rewrite flat_map_app, gtok_leaves. cbn [flat_map gleaves app].
    apply Forall2_app; [apply shows_refls|]. constructor; [|constructor]. split; [reflexivity|]. exact Hr.
  - reflexivity.
  - cbn [map ascending]. rewrite !pieces_app, !tlen_app. lia.
  - constructor.
  - apply neat_tok. apply (solid_kind _ _ Hr). exact So1.
  - assert (Kp : is_trivia (fst p) = false) by exact So1. pose proof (solid_kind _ _ Hr So1) as Kk. split.
    + rewrite !count_app, (count_trivia tr Tr). unfold count at 2, solid_leaves. cbn [filter flat_map leaves app].
      rewrite Kp, Kk. cbn [negb length]. lia.
    + intros _. split; [right; right; exists (before ++ tr), p; auto|constructor].
Qed.

Lemma firstn_app_exact {A} (a b : list A) : firstn (length a) (a ++ b) = a.
Proof. rewrite firstn_app, Nat.sub_diag, firstn_all. cbn. apply app_nil_r. Qed.
Lemma skipn_app_exact {A} (a b : list A) : skipn (length a) (a ++ b) = b.
Proof. rewrite skipn_app, Nat.sub_diag, skipn_all. reflexivity. Qed.

Lemma start_ok s tr gs ps cs errs before k : view s tr gs ps cs errs before ->
  exists s', sink_start_node t tokens s k = Ok s' /\
    view s' [] gs ((k, length (cs ++ map gtok tr)) :: ps) (cs ++ map gtok tr) errs (before ++ tr).
Proof.
  intros V.
  pose proof (v_started _ _ _ _ _ _ _ V) as V0. destruct (v_flush _ _ _ _ _ _ _ V) as (s0 & Fl & St & At & Er & Pa & Ch).
  pose proof (v_ws _ _ _ _ _ _ _ V) as W. pose proof (v_solid _ _ _ _ _ _ _ V) as So.
  pose proof (v_groups _ _ _ _ _ _ _ V) as Gr. pose proof (v_tr _ _ _ _ _ _ _ V) as Tr.
  destruct (eat_n_trivias_ok tr s0 before (ungroup gs) W At Tr) as (s1 & D1 & A1 & A2 & A3 & A4 & A5).
  exists (with_inner s1 (b_start (sk_inner s1) k)). split.
  - unfold sink_start_node.
    assert (L : (sk_token_pos s0 <= length tokens)%nat).
    { rewrite (proj1 At). unfold tokens. rewrite app_length, map_length, W, !app_length. lia. }
    destruct (sk_state s); [congruence| |]; rewrite Fl; cbn [bind]; rewrite (proj2 (Nat.leb_le _ _) L); cbn [bind];
      rewrite (proj1 At), (tokens_at before (tr ++ ungroup gs) W), count_ok by (auto; apply solid_head; exact So);
      rewrite D1; reflexivity.
  - constructor.
    + cbn. rewrite A2, St. discriminate.
    + eexists. split; [apply normal_flush; cbn; congruence|]. cbn. split; [congruence|].
      split; [exact A1|]. split; [congruence|]. split; [|congruence].
      rewrite A4, Pa, A5, Ch. reflexivity.
    + rewrite <- app_assoc. exact W.
    + auto.
    + constructor.
    + exact So.
    + exact Gr.
Qed.

Lemma finish_raw s s0 : sk_state s <> PendingStart -> flush s = Ok s0 ->
  sink_finish_node s = Ok (with_state s0 PendingFinish).
Proof.
  unfold sink_finish_node, flush. intros V0 Fl.
  destruct (sk_state s) eqn:E; [congruence| |].
  - injection Fl as <-. reflexivity.
  - apply bind_ok in Fl as (b & Fb & E'). injection E' as <-. rewrite Fb. reflexivity.
Qed.

Lemma finish_ok s tr gs k ps cs0 cs errs before :
  view s tr gs ((k, length cs0) :: ps) (cs0 ++ cs) errs before ->
  exists s', sink_finish_node s = Ok s' /\ view s' tr gs ps (cs0 ++ [GNode k cs]) errs before.
Proof.
  intros V. destruct (v_flush _ _ _ _ _ _ _ V) as (s0 & Fl & St & At & Er & Pa & Ch).
  eexists. split; [apply (finish_raw s s0 (v_started _ _ _ _ _ _ _ V) Fl)|].
  constructor.
  - discriminate.
  - unfold flush. cbn [with_state sk_state sk_inner]. unfold b_finish. rewrite Pa. cbn [bind].
    eexists. split; [reflexivity|]. cbn. split; [reflexivity|]. split; [exact At|]. split; [exact Er|].
    split; [reflexivity|]. rewrite Ch, firstn_app_exact, skipn_app_exact. reflexivity.
  - apply (v_ws _ _ _ _ _ _ _ V).
  - apply (v_first _ _ _ _ _ _ _ V).
  - apply (v_tr _ _ _ _ _ _ _ V).
  - apply (v_solid _ _ _ _ _ _ _ V).
  - apply (v_groups _ _ _ _ _ _ _ V).
Qed.

Lemma good_node k f : good f -> good [TNode k f].
Proof.
  intros G s tr gs1 gs2 ps cs errs before V F. unfold fleaves in F. cbn [flat_map leaves] in F. rewrite app_nil_r in F.
  destruct (start_ok _ _ _ _ _ _ _ k V) as (s1 & R1 & V1).
  destruct (G _ _ _ _ _ _ _ _ V1 F) as (s2 & tr2 & g & es & b2 & R2 & V2 & S2 & (u & -> & L2) & M2 & A2 & B2 & N2 & P2 & Z2).
  destruct (finish_ok _ _ _ _ _ _ _ _ _ V2) as (s3 & R3 & V3).
  exists s3, tr2, (map gtok tr ++ [GNode k g]), es, ((before ++ tr) ++ u).
  split; [|split; [|split; [|split; [|split; [|split; [|split; [|split; [|split; [|discriminate]]]]]]]]].
  - unfold flat at 1. cbn [flat_map flat1]. rewrite app_nil_r. cbn [sink_run sink_call1]. rewrite R1. cbn [bind].
    rewrite run_app. change (flat_map flat1 f) with (flat f). rewrite R2. cbn [bind sink_run sink_call1]. rewrite R3. reflexivity.
  - rewrite app_assoc. exact V3.
  - rewrite flat_map_app, gtok_strip by apply (v_tr _ _ _ _ _ _ _ V).
    cbn [flat_map strip app]. unfold strip_forest. cbn [flat_map strip_tree app]. rewrite S2. reflexivity.
  - exists (tr ++ u). rewrite app_assoc. split; [reflexivity|].
    rewrite flat_map_app, gtok_leaves. cbn [flat_map gleaves app]. rewrite app_nil_r.
    apply Forall2_app; [apply shows_refls|exact L2].
  - unfold errs1 at 1. cbn [flat_map]. rewrite app_nil_r. exact M2.
  - eapply ascending_lo; [exact A2|]. rewrite pieces_app, tlen_app. lia.
  - exact B2.
  - apply neat_node. exact N2.
  - destruct P2 as [C2 P2]. assert (Cb : count (before ++ tr) = count before).
    { rewrite count_app, (count_trivia tr (v_tr _ _ _ _ _ _ _ V)). apply Nat.add_0_r. }
    rewrite Cb in C2, P2. split.
    + rewrite C2. unfold solid_leaves. cbn [flat_map leaves]. rewrite app_nil_r. reflexivity.
    + intros _. destruct P2 as [P2 P3]; [left; left; reflexivity|]. split.
      * right. destruct P2 as [->|P2]; [|exact P2]. destruct (Z2 eq_refl) as [E ->]. left. reflexivity.
      * cbn [noted]. rewrite noted1_node, app_nil_r. exact P3.
Qed.

Lemma good_tree x : good [x].
Proof.
  induction x as [k cs IH|k|m] using tree_ind2.
  - apply good_node, good_forest, IH.
  - apply good_tok.
  - apply good_err.
Qed.
Lemma good_all f : good f.
Proof. apply good_forest. apply Forall_forall. intros x _. apply good_tree. Qed.

(** The whole run, after the root has been opened. *)
Lemma root_run s1 f gs : ws = ungroup gs -> sk_state s1 = Normal -> at_pos s1 [] -> sk_errors s1 = [] ->
  b_parents (sk_inner s1) = [(SOURCE_FILE, 0%nat)] -> b_children (sk_inner s1) = [] ->
  Forall group_ok gs -> Forall solid (tl gs) ->
  Forall2 (fun g k => remap (fst (fst g)) k) gs (fleaves f) ->
  (forall g r, gs = g :: r -> ~ solid g -> exists k f', f = TTok k :: f') ->
  exists s2 tr2 g es b2, sink_run t tokens s1 (flat f) = Ok s2 /\
    view s2 tr2 [] [(SOURCE_FILE, 0%nat)] g es b2 /\ flat_map strip g = strip_forest f /\
    Forall2 shows (flat_map gleaves g) b2 /\ map se_msg es = flat_map errs1 f /\
    ascending 0 (map se_pos es) (tlen (pieces b2)) /\ Forall (fun e => boundary (se_pos e)) es /\ Forall all_tight g /\
    ((forall m, ~ In (TErr m) f) -> Forall2 spot es (noted 0 f)).
Proof.
  intros W St At Er Pa Ch Gr So L First.
  assert (Dec : Forall solid gs \/ exists g r, gs = g :: r /\ ~ solid g).
  { destruct gs as [|g r]; [left; constructor|]. destruct (is_trivia (fst (fst g))) eqn:E.
    - right. exists g, r. split; [reflexivity|unfold solid; congruence].
    - left. constructor; [exact E|exact So]. }
  destruct Dec as [Sol|(g0 & r & -> & Ns)].
  - assert (V : view s1 [] (gs ++ []) [(SOURCE_FILE, 0%nat)] [] [] []).
    { rewrite app_nil_r. constructor; auto.
      - rewrite St. discriminate.
      - exists s1. split; [apply normal_flush; exact St|]. auto 8. }
    destruct (good_all f _ _ _ _ _ _ _ _ V L) as (s2 & tr2 & g & es & b2 & R & V2 & S & (u & -> & Ls) & M & A & B & N & P & _).
    exists s2, tr2, g, es, ([] ++ u). pose proof (proj1 N).
    assert ((forall m, ~ In (TErr m) f) -> Forall2 spot es (noted 0 f)) by (intros _; apply P; left; left; reflexivity). auto 12.
  - destruct (First g0 r eq_refl Ns) as (k & f' & ->). destruct g0 as [p tr].
    assert (Hk : remap (fst p) k /\ Forall2 (fun g k => remap (fst (fst g)) k) r (fleaves f')).
    { cbn in L. inversion L; subst; auto. }
    destruct Hk as [Hk L']. cbn [ungroup flat_map fst snd app] in W.
    destruct (token_step s1 [] p _ k W At) as (s2 & D & A1 & A2 & A3 & A4 & A5).
    assert (V : view s2 tr (r ++ []) [(SOURCE_FILE, 0%nat)] ([] ++ [GTok k (snd p)]) [] [p]).
    { assert (St2 : sk_state s2 = Normal) by congruence.
      rewrite app_nil_r. constructor; auto.
      - rewrite St2. discriminate.
      - exists s2. split; [apply normal_flush; exact St2|]. split; [exact St2|]. split; [exact A1|].
        split; [congruence|]. split; [congruence|]. rewrite A5, Ch. reflexivity.
      - discriminate.
      - inversion Gr as [|? ? [? _] ?]; auto.
      - inversion Gr; auto. }
    destruct (good_all f' _ _ _ _ _ _ _ _ V L') as (s3 & tr3 & g & es & b3 & R & V3 & S & (u & -> & Ls) & M & A & B & N & P & _).
    exists s3, tr3, ([GTok k (snd p)] ++ g), es, ([p] ++ u).
    split; [|split; [|split; [|split; [|split; [|split; [|split; [|split]]]]]]]; auto.
    + unfold flat. cbn [flat_map flat1 app sink_run sink_call1]. unfold sink_token. rewrite St.
      rewrite (normal_flush s1 St). cbn [bind]. rewrite (proj1 At) at 1. cbn [length Nat.eqb bind].
      rewrite D. cbn [bind]. exact R.
    + rewrite flat_map_app, S. unfold strip_forest. cbn [flat_map strip strip_tree app]. rewrite app_nil_r. reflexivity.
    + rewrite flat_map_app. cbn [flat_map gleaves app]. constructor; [|exact Ls]. split; [reflexivity|exact Hk].
    + eapply ascending_lo; [exact A|]. lia.
    + constructor; [apply tok_tight|exact (proj1 N)].
    + intros NE. assert (Kp : is_trivia (fst p) = true).
      { unfold solid in Ns. cbn [fst] in Ns. destruct (is_trivia (fst p)); [reflexivity|congruence]. }
      assert (Kk : k = fst p) by (destruct Hk as [->|[E _]]; [reflexivity|rewrite E in Kp; discriminate Kp]). subst k.
      destruct P as [_ P]. assert (C : count [p] = 0%nat) by (unfold count; cbn [filter]; rewrite Kp; reflexivity).
      rewrite C in P. cbn [noted noted1 app]. unfold solid_leaves. cbn [flat_map leaves app filter]. rewrite Kp. cbn [negb length].
      apply P. right. intros m r' E. apply (NE m). rewrite E. right. left. reflexivity.
Qed.

Theorem sink_parsed f gs : ws = ungroup gs -> Forall group_ok gs -> Forall solid (tl gs) ->
  Forall2 (fun g k => remap (fst (fst g)) k) gs (fleaves f) ->
  (forall g r, gs = g :: r -> ~ solid g -> exists k f', f = TTok k :: f') ->
  exists cs errs,
    (let! s := sink_run t tokens sink_new (flat [TNode SOURCE_FILE f]) in sink_finish t tokens s)
      = Ok (GNode SOURCE_FILE cs, errs) /\
    Forall2 shows (flat_map gleaves cs) ws /\ flat_map strip cs = strip_forest f /\
    map se_msg errs = flat_map errs1 f /\ ascending 0 (map se_pos errs) (tlen t) /\
    Forall (fun e => boundary (se_pos e)) errs /\ Forall all_tight cs /\
    ((forall m, ~ In (TErr m) f) -> Forall2 spot errs (noted 0 f)).
Proof.
  intros W Gr So L First.
  set (s1 := with_state (with_inner sink_new (b_start (sk_inner sink_new) SOURCE_FILE)) Normal).
  destruct (root_run s1 f gs) as (s2 & tr & g & es & b & R & V & S & Ls & M & A & B & N & P); auto.
  { split; reflexivity. }
  destruct (v_flush _ _ _ _ _ _ _ V) as (s0 & Fl & St & At & Er & Pa & Ch).
  pose proof (v_ws _ _ _ _ _ _ _ V) as W2. cbn [ungroup flat_map] in W2.
  pose proof (finish_raw _ _ (v_started _ _ _ _ _ _ _ V) Fl) as R2.
  destruct (eat_trivias_ok tr (with_state (with_state s0 PendingFinish) Normal) b [] W2 At (v_tr _ _ _ _ _ _ _ V) I)
    as (s3 & D & A1 & A2 & A3 & A4 & A5).
  exists (g ++ map gtok tr), es. split.
  - unfold flat. cbn [flat_map flat1 app sink_run sink_call1]. rewrite app_nil_r.
    change (sink_start_node t tokens sink_new SOURCE_FILE) with (@Ok sink s1). cbn [bind].
    rewrite run_app. change (flat_map flat1 f) with (flat f). rewrite R. cbn [bind sink_run sink_call1]. rewrite R2.
    cbn [bind]. unfold sink_finish. cbn [with_state sk_state].
    assert (Sk : skipn (sk_token_pos s0) tokens = map tok_of (tr ++ []) ++ [token_new EOF 0]).
    { rewrite (proj1 At). apply tokens_at. exact W2. }
    unfold eat_trivias. cbn [with_state sk_token_pos]. rewrite Sk.
    match goal with |- context[eat_trivias_from t _ ?x] =>
      change x with (with_state (with_state s0 PendingFinish) Normal) end.
    rewrite D. cbn [bind].
    unfold b_finish. rewrite A4. cbn [with_state sk_inner]. rewrite Pa. cbn [bind firstn app].
    unfold b_done. cbn [b_children skipn]. rewrite A5, A3. cbn [with_state sk_inner sk_errors]. rewrite Ch, Er. reflexivity.
  - split; [|split; [|split; [|split; [|split; [|split]]]]]; auto.
    + rewrite flat_map_app, gtok_leaves, W2, app_nil_r. apply Forall2_app; [exact Ls|apply shows_refls].
    + rewrite flat_map_app, S, gtok_strip, app_nil_r by apply (v_tr _ _ _ _ _ _ _ V). reflexivity.
    + eapply ascending_hi; [exact A|]. rewrite <- Ht, W2, !pieces_app, !tlen_app. lia.
    + apply Forall_app. split; [exact N|apply toks_tight].
Qed.
End Sinks.
