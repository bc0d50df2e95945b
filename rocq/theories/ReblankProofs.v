(** Replacing runs of blanks by other runs of blanks keeps the tokens. *)
From Coq Require Import String.
From Verif Require Import Base BaseProofs Kinds KindsProofs LexSpec Lexer LexerRuns LexerProofs LexerStateProofs LexerExact ShapeSpec.
Local Open Scope N_scope.

Definition blank_free (w : text) : Prop := Forall (fun c => ~ blank c) w.

(** Only white space, comments and strings contain blanks. *)
Lemma lexeme_blank_free k w : lexeme k w ->
  k = WHITESPACE \/ k = COMMENT \/ k = BYTE_STRING \/ blank_free w.
Proof.
  assert (S : forall suf, In suf suffixes -> blank_free suf).
  { intros suf H. cbn in H. unfold blank_free. destruct H as [<-|[<-|[<-|[<-|[]]]]]; lits; repeat (apply Forall_cons; [unfold blank; lia|]); apply Forall_nil. }
  assert (P : forall l : list (text * kind), forallb (fun p => forallb (fun c => negb (is_space c)) (fst p)) l = true ->
    forall k w, In (w, k) l -> blank_free w).
  { intros l H k0 w0 I. rewrite forallb_forall in H. specialize (H _ I). cbn [fst] in H. rewrite forallb_forall in H.
    apply Forall_forall. intros c Hc Hb. apply is_space_spec in Hb. specialize (H _ Hc). rewrite Hb in H. discriminate. }
  intros H. destruct H as [w Hw Fw|b Hb|b Hb|ds suf Hd Fd Hs|hs suf Hh Fh Hs|p b Hp Hb|w k Hk|c r Hc Fr Hk|w k Hk]; auto.
  - right; right; right. apply Forall_app. split; [|exact (S _ Hs)]. eapply Forall_impl; [|exact Fd]. intros; classes.
  - right; right; right. lits. cbn [app]. constructor; [unfold blank; lia|]. constructor; [unfold blank; lia|].
    apply Forall_app. split; [|exact (S _ Hs)]. eapply Forall_impl; [|exact Fh]. unfold hex_digit. intros; classes.
  - right; right; right. apply (P keywords) with (k := k); [vm_compute; reflexivity|exact Hk].
  - right; right; right. constructor; [classes|]. eapply Forall_impl; [|exact Fr]. intros; classes.
  - right; right; right. apply (P puncts) with (k := k); [vm_compute; reflexivity|exact Hk].
Qed.

Definition starts_blank (t : text) : Prop := exists c r, t = c :: r /\ blank c.
Definition text_of (ws : list (kind * text)) : text := concat (map snd ws).

Lemma whitespace_form w : lexeme WHITESPACE w -> w <> [] /\ Forall blank w.
Proof.
  intros L. destruct (lexeme_first _ _ L) as (c & r & -> & F). split; [discriminate|].
  inversion L as [? H1 H2| | | | | |? ? H|? ? H|? ? H]; subst; [exact H2| | ].
  - exfalso. assert (G : forallb (fun p => negb (kind_eqb (snd p) WHITESPACE)) keywords = true) by (vm_compute; reflexivity).
    rewrite forallb_forall in G. specialize (G _ H). discriminate G.
  - exfalso. assert (G : forallb (fun p => negb (kind_eqb (snd p) WHITESPACE)) puncts = true) by (vm_compute; reflexivity).
    rewrite forallb_forall in G. specialize (G _ H). discriminate G.
Qed.

Lemma common ws ws' : Forall (fun p => lexeme (fst p) (snd p)) ws -> Forall2 reblanked ws ws' ->
  exists p x y, text_of ws = p ++ x /\ text_of ws' = p ++ y /\
    (x = [] /\ y = [] \/ starts_blank x /\ starts_blank y).
Proof.
  intros L F. induction F as [|[k w] [k' w'] ws ws' [E R] F IH]; [exists [], [], []; auto|].
  inversion L as [|? ? L1 L2]; subst. cbn [fst snd] in *. subst k'.
  unfold text_of in *. cbn [map concat snd]. destruct (kind_eqb k WHITESPACE) eqn:K.
  - apply kind_eqb_eq in K. subst k. destruct (whitespace_form _ L1) as [N B]. destruct R as [N' B'].
    exists [], (w ++ concat (map snd ws)), (w' ++ concat (map snd ws')). split; [reflexivity|]. split; [reflexivity|].
    right. split; [destruct w as [|c w]|destruct w' as [|c w']]; try congruence.
    + exists c, (w ++ concat (map snd ws)). split; [reflexivity|]. inversion B; auto.
    + exists c, (w' ++ concat (map snd ws')). split; [reflexivity|]. inversion B'; auto.
  - destruct (IH L2) as (p & x & y & -> & -> & C). subst w'. exists (w ++ p), x, y. rewrite <- !app_assoc. auto.
Qed.

Lemma prefix_split {A} (a b c d : list A) : a ++ b = c ++ d -> (length a <= length c)%nat -> exists m, c = a ++ m.
Proof.
  revert c. induction a as [|x a IH]; intros c E L; [exists c; reflexivity|].
    destruct c as [|y c]; [cbn in L; exfalso; inversion L|]; cbn [length] in L. cbn [app] in E. injection E as <- E.
  destruct (IH c E) as [m ->]; [apply le_S_n; exact L|]. exists m. reflexivity.
Qed.

Lemma stream_lexemes t ws : token_stream t ws -> Forall (fun p => lexeme (fst p) (snd p)) ws.
Proof. induction 1; constructor; auto. Qed.
Lemma stream_text t ws : token_stream t ws -> t = text_of ws.
Proof. induction 1 as [|k w rest ws _ _ _ IH]; [reflexivity|]. unfold text_of in *. cbn [map concat snd]. congruence. Qed.
Lemma stream_no_quote t ws : token_stream t ws -> forall r, t = 34 :: r -> False.
Proof.
  intros S r ->. inversion S as [|k w rest ws' L _ _ E]; subst.
  eapply (quote_no_lexeme r); [symmetry; exact E|exact L].
Qed.

Lemma int_no_quote k w : lexeme k w -> k = INTEGER_NUMBER -> ~ In 34 w.
Proof.
  assert (S : forall suf, In suf suffixes -> ~ In 34 suf).
  { intros suf H. cbn in H. destruct H as [<-|[<-|[<-|[<-|[]]]]]; lits; cbn; lia. }
  destruct 1 as [w Hw Fw|b Hb|b Hb|ds suf Hd Fd Hs|hs suf Hh Fh Hs|p b Hp Hb|w k Hk|c r Hc Fr Hk|w k Hk];
    intros E I; try discriminate.
  - apply in_app_iff in I as [I|I]; [rewrite Forall_forall in Fd; apply Fd in I; classes|exact (S _ Hs I)].
  - lits. cbn [app] in I. destruct I as [I|[I|I]]; try discriminate.
    apply in_app_iff in I as [I|I]; [rewrite Forall_forall in Fh; apply Fh in I; unfold hex_digit in I; classes|exact (S _ Hs I)].
  - subst k. assert (G : forallb (fun p => negb (kind_eqb (snd p) INTEGER_NUMBER)) keywords = true) by (vm_compute; reflexivity).
    rewrite forallb_forall in G. specialize (G _ Hk). discriminate G.
  - subst k. assert (G : forallb (fun p => negb (kind_eqb (snd p) INTEGER_NUMBER)) puncts = true) by (vm_compute; reflexivity).
    rewrite forallb_forall in G. specialize (G _ Hk). discriminate G.
Qed.

Lemma keep_longest k w rest ws ws' : k <> WHITESPACE -> lexeme k w -> longest_lexeme (w ++ rest) w ->
  token_stream rest ws -> Forall2 reblanked ws ws' -> maximal (w ++ text_of ws') w.
Proof.
  intros Hk L [_ M] S F. pose proof (stream_text _ _ S) as Et. pose proof (stream_no_quote _ _ S) as Nq.
  destruct (common _ _ (stream_lexemes _ _ S) F) as (p & x & y & Ex & Ey & C).
  assert (Nil : rest = [] -> text_of ws' = []).
  { intros ->. rewrite Ex in Et. symmetry in Et. apply app_eq_nil in Et as [-> ->].
    destruct C as [[_ ->]|[(? & ? & E & _) _]]; [exact Ey|discriminate]. }
  assert (Hd : forall c r, text_of ws' = c :: r -> ~ blank c -> exists r', rest = c :: r').
  { intros c r E Nb. rewrite Ey in E. destruct p as [|c' p].
    - cbn [app] in E. destruct C as [[-> ->]|[_ (c1 & r1 & E1 & B1)]]; [discriminate|]. congruence.
    - injection E as -> _. rewrite Et, Ex. cbn [app]. eauto. }
  intros k' w' rest' E L'.
  destruct (le_lt_dec (length w') (length w)) as [Hle|Hlt]; [exact Hle|]. exfalso.
  destruct (prefix_split w (text_of ws') w' rest') as [m Em]; [exact E|lia|].
  assert (Hm : m <> []) by (intros ->; rewrite app_nil_r in Em; subst w'; lia).
  subst w'. rewrite <- app_assoc in E. apply app_inv_head in E.
  assert (Case : k = COMMENT \/ k = BYTE_STRING \/ k <> COMMENT /\ k <> BYTE_STRING).
  { destruct (kind_eqb k COMMENT) eqn:K1; [left; apply kind_eqb_eq; exact K1|].
    destruct (kind_eqb k BYTE_STRING) eqn:K2; [right; left; apply kind_eqb_eq; exact K2|].
    right; right. split; intros ->; discriminate. }
  destruct Case as [-> |[-> |[N1 N2]]].
  - (* a comment runs to the end of its line *)
    destruct (lexeme_kclass _ _ L) as (c & r & Ew & Kc).
    destruct Kc as [K X|K X|K X Y|X Y K|_ X [q Y]|X K]; try discriminate.
    + destruct K as [K|[K _]]; [|discriminate]. 
      assert (G : forallb (fun p => negb (kind_eqb (snd p) COMMENT)) keywords = true) by (vm_compute; reflexivity).
      rewrite forallb_forall in G. specialize (G _ K). discriminate G.
    + assert (Cf : (exists b, ~ In 10 b /\ w = `"//" ++ b ++ [10]) \/ (exists b, ~ In 10 b /\ w = `"//" ++ b)).
      { inversion L as [|b Hb Eb|b Hb Eb| | | |? ? H|? ? H|? ? H]; subst; eauto.
        - exfalso. assert (G : forallb (fun p => negb (kind_eqb (snd p) COMMENT)) keywords = true) by (vm_compute; reflexivity).
          rewrite forallb_forall in G. specialize (G _ H). discriminate G.
        - exfalso. assert (G : forallb (fun p => negb (kind_eqb (snd p) COMMENT)) puncts = true) by (vm_compute; reflexivity).
          rewrite forallb_forall in G. specialize (G _ H). discriminate G. }
      destruct Cf as [(b & Hb & Eb)|(b & Hb & Eb)].
      * assert (Mx : maximal (w ++ text_of ws') w).
        { rewrite Eb. change ((`"//" ++ b ++ [10]) ++ text_of ws') with (47 :: (47 :: b ++ [10]) ++ text_of ws').
          apply max_comment; [reflexivity| | |].
          - exists b. auto.
          - exists (text_of ws'). reflexivity.
          - left. eauto. }
        rewrite E in Mx. rewrite app_assoc in Mx. specialize (Mx _ _ _ eq_refl L'). lia.
      * destruct rest as [|c0 rest0].
        { rewrite (Nil eq_refl) in E. destruct m; [congruence|discriminate]. }
        assert (Lc : lexeme COMMENT (w ++ [c0])).
        { rewrite Eb, <- app_assoc. destruct (N.eq_dec c0 10) as [->|Hc]; [apply lex_comment_line; exact Hb|].
          apply lex_comment_eof. intros I. apply in_app_iff in I as [I|[I|[]]]; [auto|congruence]. }
        specialize (M _ (w ++ [c0]) rest0 ltac:(rewrite <- app_assoc; reflexivity) Lc).
        rewrite app_length in M. cbn [length] in M. lia.
    + assert (G : forallb (fun p => negb (kind_eqb (snd p) COMMENT)) puncts = true) by (vm_compute; reflexivity).
      rewrite forallb_forall in G. specialize (G _ K). discriminate G.
  - (* a string ends at its closing quote *)
    assert (Cf : exists q b, (q = 120 \/ q = 98) /\ string_body b /\ w = q :: 34 :: b ++ [34]).
    { apply byte_string_form. exact L. }
    destruct Cf as (q & b & Hq & Hb & Eb).
    pose proof (max_string q b (m ++ rest') Hq Hb) as Mx.
    assert (E2 : q :: 34 :: b ++ 34 :: m ++ rest' = (w ++ m) ++ rest').
    { rewrite Eb. cbn [app]. rewrite <- !app_assoc. reflexivity. }
    rewrite E2, <- Eb in Mx. specialize (Mx _ _ _ eq_refl L'). lia.
  - (* the rest: a longer lexeme would reach into the blanks *)
    assert (First : exists c r, w = c :: r /\ ~ blank c /\ (forall q, w <> `"//" ++ q) /\ (forall r', r <> 34 :: r')).
    { destruct (lexeme_kclass _ _ L) as (c & r & -> & Kc). exists c, r. split; [reflexivity|].
      destruct Kc as [K X|K X|K X Y|X Y K|K X [q Y]|X K]; try congruence.
      - split; [classes|]. split; [intros q Eq; injection Eq as -> _; classes|].
        intros r' ->. apply (int_no_quote _ _ L K). right; left; reflexivity.
      - split; [classes|]. split; [intros q Eq; injection Eq as -> _; classes|].
        intros r' ->. eapply word_no_quote; eauto.
      - split; [classes|]. split; [intros q Eq; eapply no_slash_slash; eauto|].
        intros r' ->.
        assert (G : forallb (fun p => match fst p with _ :: 34 :: _ => false | _ => true end) puncts = true) by (vm_compute; reflexivity).
        rewrite forallb_forall in G. specialize (G _ K). cbn [fst] in G. discriminate. }
    destruct First as (c & r & -> & Nb & Ns & Nqt).
    destruct m as [|c1 m1]; [congruence|].
    destruct (lexeme_blank_free _ _ L') as [-> |[-> |[-> |Bf]]].
    + destruct (whitespace_form _ L') as [_ B]. cbn [app] in B. inversion B; subst. contradiction.
    + assert (Cf : exists q, (c :: r) ++ c1 :: m1 = `"//" ++ q).
      { destruct (lexeme_kclass _ _ L') as (c2 & r2 & Ew & Kc).
        destruct Kc as [K X|K X|K X Y|X Y K|_ X [q Y]|X K]; try discriminate.
        - destruct K as [K|[K _]]; [|discriminate]. 
          assert (G : forallb (fun p => negb (kind_eqb (snd p) COMMENT)) keywords = true) by (vm_compute; reflexivity).
          rewrite forallb_forall in G. specialize (G _ K). discriminate G.
        - eauto.
        - assert (G : forallb (fun p => negb (kind_eqb (snd p) COMMENT)) puncts = true) by (vm_compute; reflexivity).
          rewrite forallb_forall in G. specialize (G _ K). discriminate G. }
      destruct Cf as [q Cf]. change (`"//") with [47; 47] in Cf. cbn [app] in Cf. injection Cf as -> Cf.
      destruct r as [|c3 r].
      * cbn [app] in Cf. injection Cf as -> _.
        destruct (Hd 47 (m1 ++ rest') E ltac:(unfold blank; lia)) as [r' ->].
        assert (Lc : lexeme COMMENT (`"//" ++ [])) by (apply lex_comment_eof; intros []).
        specialize (M _ [47; 47] r' eq_refl Lc). cbn in M. lia.
      * cbn [app] in Cf. injection Cf as -> _. apply (Ns r). reflexivity.
    + assert (Cf : exists q b, c :: r ++ c1 :: m1 = q :: 34 :: b).
      { destruct (byte_string_form _ L') as (q & b & _ & _ & Eb). exists q, (b ++ [34]). exact Eb. }
      destruct Cf as (q & b & Cf). injection Cf as _ Cf.
      destruct r as [|c3 r].
      * cbn [app] in Cf. injection Cf as -> _.
        destruct (Hd 34 (m1 ++ rest') E ltac:(unfold blank; lia)) as [r' ->].
        exact (Nq r' eq_refl).
      * cbn [app] in Cf. injection Cf as -> _. apply (Nqt r). reflexivity.
    + assert (In1 : (length (c1 :: m1) <= length p)%nat).
      { destruct (le_lt_dec (length (c1 :: m1)) (length p)) as [?|Hl]; [assumption|]. exfalso.
        rewrite Ey in E. destruct (prefix_split p y (c1 :: m1) rest') as [z Ez]; [exact E|lia|].
        rewrite Ez, <- app_assoc in E. apply app_inv_head in E.
        destruct z as [|z0 z]; [rewrite app_nil_r in Ez; rewrite Ez in Hl; lia|].
        destruct C as [[_ ->]|[_ (b0 & y' & -> & B0)]]; [discriminate|].
        injection E as <- _. unfold blank_free in Bf. rewrite Ez in Bf. apply Forall_app in Bf as [_ Bf].
        apply Forall_app in Bf as [_ Bf]. inversion Bf; subst. contradiction. }
      rewrite Ey in E. destruct (prefix_split (c1 :: m1) rest' p y) as [z Ez]; [symmetry; exact E|exact In1|].
      specialize (M k' ((c :: r) ++ c1 :: m1) (z ++ x)).
      assert ((length ((c :: r) ++ c1 :: m1) <= length (c :: r))%nat).
      { apply M; [|exact L']. rewrite Et, Ex, Ez, <- !app_assoc. reflexivity. }
      lia.
Qed.

Lemma reblank_stream t ws : token_stream t ws -> forall ws', Forall2 reblanked ws ws' -> token_stream (text_of ws') ws'.
Proof.
  induction 1 as [|k w rest ws L M S IH]; intros ws' F; [inversion F; constructor|].
  inversion F as [|? [k' w'] ? ws1 [E R] F1]; subst. cbn [fst snd] in *. subst k'.
  unfold text_of. cbn [map concat snd]. fold (text_of ws1).
  destruct (kind_eqb k WHITESPACE) eqn:K.
  - apply kind_eqb_eq in K. subst k. destruct R as [N B].
    constructor; [constructor; auto| |auto]. split; [eauto|].
    apply max_blank; auto.
    destruct (whitespace_form _ L) as [Nw Bw].
    inversion S as [|k2 w2 rest2 ws2 L2 M2 S2]; subst; [inversion F1; exact I|].
    inversion F1 as [|? [k2' w2'] ? ws3 [E2 R2] F2]; subst. cbn [fst snd] in *. subst k2'.
    destruct (kind_eqb k2 WHITESPACE) eqn:K2.
    + exfalso. apply kind_eqb_eq in K2. subst k2. destruct (whitespace_form _ L2) as [Nw2 Bw2].
      destruct M as [_ M]. specialize (M WHITESPACE (w ++ w2) rest2 ltac:(rewrite <- app_assoc; reflexivity)).
      assert ((length (w ++ w2) <= length w)%nat).
      { apply M. constructor; [destruct w; [congruence|discriminate]|]. apply Forall_app. auto. }
      rewrite app_length in H. destruct w2; [congruence|cbn in H; lia].
    + subst w2'. unfold text_of. cbn [map concat snd].
      destruct (lexeme_kclass _ _ L2) as (c & r & -> & Kc). cbn [app stops].
      destruct (is_space c) eqn:Sp; [|reflexivity]. apply is_space_spec in Sp. exfalso.
      destruct Kc as [Kx X|Kx X|Kx X Y|X Y Kx|Kx X [q Y]|X Kx]; try (subst k2; discriminate); try classes.
  - subst w'. constructor; [exact L| |auto]. split; [eauto|].
    eapply keep_longest; eauto. intros ->. discriminate.
Qed.
