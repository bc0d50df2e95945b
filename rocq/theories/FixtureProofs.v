From Coq Require Import String.
From Verif Require Import Base BaseProofs Utf8 Vfs VfsPath VfsSpec VfsProofs FileSet FileSetSpec FileSetProofs Database DatabaseProofs
  Lexer LexerProofs Stdx StdxSpec StdxProofs PropStdx PropDatabase Fixture FixtureSpec.
Local Open Scope N_scope.

(** ** Markers *)

Lemma starts_with_app p : forall r, starts_with (p ++ r) p = true.
Proof. induction p as [|c p IH]; intros r; [destruct r; reflexivity|]. cbn [starts_with app]. rewrite N.eqb_refl. apply IH. Qed.
Lemma starts_with_prefix p : forall t, starts_with t p = true -> exists r, t = p ++ r.
Proof.
  induction p as [|c p IH]; intros t H; [exists t; reflexivity|].
  destruct t as [|d t]; [discriminate H|]. cbn [starts_with] in H. apply andb_prop in H. destruct H as [E H].
  apply N.eqb_eq in E. subst d. destruct (IH t H) as (r & ->). exists r. reflexivity.
Qed.
Lemma contains_spec t p : contains t p = true <-> occurs p t.
Proof.
  unfold contains, occurs. split.
  - induction t as [|c t IH]; cbn [find_str].
    + destruct (starts_with [] p) eqn:E; [|discriminate]. intros _. apply starts_with_prefix in E. destruct E as (r & E).
      exists [], r. exact E.
    + destruct (starts_with (c :: t) p) eqn:E.
      * intros _. apply starts_with_prefix in E. destruct E as (r & E). exists [], r. exact E.
      * destruct (find_str p t); [|discriminate]. intros _. destruct (IH eq_refl) as (a & b & ->).
        exists (c :: a), b. reflexivity.
  - intros (a & b & ->). induction a as [|c a IH].
    + cbn [app]. destruct (p ++ b) as [|x r] eqn:E.
      * cbn [find_str]. rewrite <- E, starts_with_app. reflexivity.
      * cbn [find_str]. rewrite <- E, starts_with_app. reflexivity.
    + cbn [app find_str]. destruct (starts_with _ _); [reflexivity|].
      destruct (find_str p (a ++ p ++ b)); [reflexivity|discriminate IH].
Qed.
Lemma occurs_first t : occurs cursor t -> exists a b, t = a ++ cursor ++ b /\ ~ occurs cursor a.
Proof.
  intros (a0 & b0 & E). revert a0 b0 E. induction t as [|c t IH]; intros a0 b0 E.
  - destruct a0; discriminate E.
  - destruct a0 as [|x a0].
    + exists [], b0. split; [exact E|]. intros (x & y & X). destruct x; discriminate X.
    + injection E as <- E. destruct (IH a0 b0 E) as (a & b & Ht & Ha).
      destruct (starts_with (c :: t) cursor) eqn:S.
      * apply starts_with_prefix in S. destruct S as (r & S). exists [], r. split; [exact S|].
        intros (x & y & X). destruct x; discriminate X.
      * exists (c :: a), b. split; [rewrite Ht; reflexivity|].
        intros (x & y & X). destruct x as [|z x].
        -- cbn [app] in X. rewrite Ht in S. change ((c :: a) ++ cursor ++ b) with (c :: a ++ cursor ++ b) in S.
           assert (Y : c :: a ++ cursor ++ b = cursor ++ (y ++ cursor ++ b)).
           { change (c :: a ++ cursor ++ b) with ((c :: a) ++ cursor ++ b). rewrite X. rewrite <- app_assoc. reflexivity. }
           rewrite Y, starts_with_app in S. discriminate S.
        -- injection X as _ X. apply Ha. exists x, y. exact X.
Qed.

Lemma unescape_spec t s : unescaped t s <-> s = str_replace ESCAPED_CURSOR_MARKER CURSOR_MARKER t.
Proof.
  change ESCAPED_CURSOR_MARKER with escaped_cursor. change CURSOR_MARKER with cursor. unfold str_replace.
  assert (M : forall r, replace_from 0 escaped_cursor cursor (escaped_cursor ++ r) = cursor ++ replace_from 0 escaped_cursor cursor r).
  { intros r. unfold escaped_cursor. cbn [app]. cbn [replace_from]. change (92 :: 36 :: 48 :: r) with ([92; 36; 48] ++ r).
    rewrite starts_with_app. reflexivity. }
  assert (C : forall c r, (forall x, c :: r <> escaped_cursor ++ x) ->
    replace_from 0 escaped_cursor cursor (c :: r) = c :: replace_from 0 escaped_cursor cursor r).
  { intros c r H. cbn [replace_from]. destruct (starts_with (c :: r) escaped_cursor) eqn:E; [|reflexivity].
    apply starts_with_prefix in E. destruct E as (x & E). destruct (H x E). }
  split.
  - intros U. induction U as [|r r' U IH|c r r' H U IH]; [reflexivity| |].
    + rewrite M, IH. reflexivity.
    + rewrite (C c r H), IH. reflexivity.
  - intros ->. assert (G : forall n t, (List.length t < n)%nat -> unescaped t (replace_from 0 escaped_cursor cursor t)).
    { clear t. induction n as [|n IH]; intros t L; [lia|]. destruct t as [|c r]; [constructor|].
      destruct (starts_with (c :: r) escaped_cursor) eqn:E.
      - apply starts_with_prefix in E. destruct E as (x & E). rewrite E, M. constructor. apply IH.
        rewrite E in L. unfold escaped_cursor in L. cbn [app List.length] in L. lia.
      - assert (H : forall x, c :: r <> escaped_cursor ++ x).
        { intros x X. rewrite X, starts_with_app in E. discriminate E. }
        rewrite (C c r H). constructor; [exact H|]. apply IH. cbn [List.length] in L. lia. }
    apply (G (S (List.length t))). lia.
Qed.

(** ** The place that an unescaped text marks *)

Lemma app_split {A} (a r a' r' : list A) : a ++ r = a' ++ r' ->
  (exists b, a' = a ++ b /\ r = b ++ r') \/ (exists x b, a = a' ++ x :: b /\ r' = x :: b ++ r).
Proof.
  revert a'. induction a as [|c a IH]; intros a' E.
  - left. exists a'. auto.
  - destruct a' as [|c' a'].
    + right. cbn in E. exists c, a. split; [reflexivity|]. symmetry. exact E.
    + injection E as <- E. destruct (IH a' E) as [(b & -> & ->)|(x & b & -> & ->)].
      * left. exists b. auto.
      * right. exists x, b. auto.
Qed.

Inductive marker_case (t : text) : Prop :=
| mc_offset a b : t = a ++ cursor ++ b -> ~ occurs cursor (a ++ b) -> marker_case t
| mc_range a b c : t = a ++ cursor ++ b ++ cursor ++ c -> ~ occurs cursor (a ++ b) -> marker_case t
| mc_garbled a b : t = a ++ [36; 36; 48; 48] ++ b -> ~ occurs cursor (a ++ [36]) -> marker_case t.
Lemma occurs_left p a b : ~ occurs p (a ++ b) -> ~ occurs p a.
Proof. intros H (x & y & E). apply H. exists x, (y ++ b). rewrite E, <- !app_assoc. reflexivity. Qed.
Lemma marker_cases t : occurs cursor t -> marker_case t.
Proof.
  intros O. destruct (occurs_first t O) as (a & r & -> & Ha).
  destruct (contains (a ++ r) cursor) eqn:E.
  - apply contains_spec in E. destruct (occurs_first _ E) as (a' & c & X & Ha').
    destruct (app_split _ _ _ _ X) as [(b & -> & ->)|(x & b & -> & Y)].
    + apply (mc_range _ a b c); [reflexivity|exact Ha'].
    + unfold cursor in Y. cbn [app] in Y. injection Y as <- Y. destruct b as [|y b].
      * cbn in Y. subst r. apply (mc_garbled _ a' c).
        -- unfold cursor. rewrite <- !app_assoc. reflexivity.
        -- exact Ha.
      * injection Y as <- Y. exfalso. apply Ha. exists a', b. reflexivity.
  - apply (mc_offset _ a r); [reflexivity|]. intros X. apply contains_spec in X. congruence.
Qed.
Lemma extract_garbled a b : tlen (a ++ [36; 36; 48; 48] ++ b) < u32_bound -> ~ occurs cursor (a ++ [36]) ->
  extract_range_or_offset (a ++ [36; 36; 48; 48] ++ b) = Panic PAssert.
Proof.
  intros L H. rewrite !tlen_app in L. change (tlen [36; 36; 48; 48]) with 4 in L.
  unfold extract_range_or_offset, try_extract_range.
  replace (a ++ [36; 36; 48; 48] ++ b) with ((a ++ [36]) ++ CURSOR_MARKER ++ (48 :: b))
    by (rewrite <- app_assoc; reflexivity).
  rewrite extract_first; [|rewrite tlen_app; change (tlen [36]) with 1; lia|exact H]. cbn [bind].
  replace ((a ++ [36]) ++ 48 :: b) with (a ++ CURSOR_MARKER ++ b) by (rewrite <- app_assoc; reflexivity).
  rewrite extract_first; [|lia|apply (occurs_left _ a [36]); exact H]. cbn [bind].
  rewrite tlen_app. change (tlen [36]) with 1.
  replace (tlen a + 1 <=? tlen a) with false by lia. reflexivity.
Qed.
Lemma garbled_excludes a b : ~ occurs cursor (a ++ [36]) ->
  (forall x y, a ++ [36; 36; 48; 48] ++ b = x ++ cursor ++ y -> ~ occurs cursor (x ++ y) -> False) /\
  (forall x y z, a ++ [36; 36; 48; 48] ++ b = x ++ cursor ++ y ++ cursor ++ z -> ~ occurs cursor (x ++ y) -> False).
Proof.
  intros H.
  (* the first marker is the one behind [a $] *)
  assert (G : forall x y, a ++ [36; 36; 48; 48] ++ b = x ++ cursor ++ y -> ~ occurs cursor x -> x = a ++ [36] /\ y = 48 :: b).
  { intros x y E N.
    replace (a ++ [36; 36; 48; 48] ++ b) with ((a ++ [36]) ++ cursor ++ 48 :: b) in E by (rewrite <- app_assoc; reflexivity).
    destruct (app_split _ _ _ _ E) as [(c & -> & X)|(c & d & X & Y)].
    - destruct c as [|c1 c]; [rewrite app_nil_r; split; [reflexivity|]; unfold cursor in X; cbn in X; injection X as <-; reflexivity|].
      exfalso. unfold cursor in X. cbn in X. injection X as <- X. destruct c as [|c2 c]; [discriminate X|].
      injection X as <- X. apply N. exists (a ++ [36]), c. reflexivity.
    - exfalso. unfold cursor in Y. cbn in Y. injection Y as <- Y. destruct d as [|d1 d]; [discriminate Y|].
      injection Y as <- Y. apply H. rewrite X. exists x, d. reflexivity. }
  split.
  - intros x y E N. destruct (G x y E (occurs_left _ _ _ N)) as [-> ->]. apply N. exists a, b.
    rewrite <- app_assoc. reflexivity.
  - intros x y z E N. destruct (G x (y ++ cursor ++ z) E (occurs_left _ _ _ N)) as [-> X].
    destruct y as [|y1 y]; [discriminate X|]. injection X as -> X. apply N. exists a, y. rewrite <- app_assoc. reflexivity.
Qed.

Lemma shown_marks t s p : shown t s (Some p) -> marks t.
Proof.
  intros H. inversion H; subst; split; auto.
  - exists a, b. reflexivity.
  - exists a, (b ++ cursor ++ c). reflexivity.
Qed.
Lemma shown_none t s : shown t s None -> ~ marks t.
Proof. intros H [M1 M2]. inversion H; subst; contradiction. Qed.

Lemma entry_text_spec e id pos : tlen (fx_text e) < u32_bound ->
  match entry_text e id pos with
  | Ok (t, pos') => exists p, shown (fx_text e) t p /\
      (p = None /\ pos' = pos \/ exists q, p = Some q /\ pos = None /\ pos' = Some (id, q))
  | _ => garbled (fx_text e) \/ (marks (fx_text e) /\ pos <> None)
  end.
Proof.
  intros L. unfold entry_text. change CURSOR_MARKER with cursor in *. change ESCAPED_CURSOR_MARKER with escaped_cursor in *.
  destruct (contains (fx_text e) cursor) eqn:C.
  - apply contains_spec in C. destruct (contains (fx_text e) escaped_cursor) eqn:D.
    + apply contains_spec in D. exists None. split; [|left; auto].
      apply shown_escaped; [exact D|]. apply unescape_spec. reflexivity.
    + assert (D' : ~ occurs escaped_cursor (fx_text e)) by (intros X; apply contains_spec in X; congruence).
      destruct (marker_cases _ C) as [a b E N|a b c E N|a b E N]; rewrite E in *.
      * rewrite tlen_app in L. destruct (C42_range_or_offset a b) as (X & _); [lia|exact N|].
        change CURSOR_MARKER with cursor in X. rewrite X. cbn [bind].
        destruct pos as [pp|]; cbn [assert_ bind].
        -- right. split; [split; assumption|discriminate].
        -- exists (Some (inr (tlen a))). split; [apply shown_offset; assumption|right; eauto].
      * rewrite !tlen_app in L. destruct (C42_range_round_trip a b c) as (_ & X); [lia|exact N|].
        change CURSOR_MARKER with cursor in X. rewrite X. cbn [bind].
        destruct pos as [pp|]; cbn [assert_ bind].
        -- right. split; [split; assumption|discriminate].
        -- exists (Some (inl (tlen a, tlen a + tlen b))). split; [apply shown_range; assumption|right; eauto].
      * rewrite (extract_garbled a b L N). cbn [bind]. left. split; [exact D'|]. exists a, b. auto.
  - exists None. split; [|left; auto]. apply shown_plain. intros X. apply contains_spec in X. congruence.
Qed.
Lemma shown_not_garbled t s p : shown t s p -> garbled t -> False.
Proof.
  intros H (D & a & b & E & N). destruct (garbled_excludes a b N) as [G1 G2].
  inversion H; subst.
  - apply H0. exists (a ++ [36]), (48 :: b). rewrite <- app_assoc. reflexivity.
  - contradiction.
  - apply (G1 a0 b0); auto.
  - apply (G2 a0 b0 c); auto.
Qed.
Lemma app_cursor_unique a b x y : a ++ cursor ++ b = x ++ cursor ++ y -> ~ occurs cursor a -> ~ occurs cursor x -> a = x /\ b = y.
Proof.
  intros E Ha Hx. destruct (app_split _ _ _ _ E) as [(c & -> & X)|(c & d & X & Y)].
  - destruct c as [|c1 c]; [rewrite app_nil_r; split; [reflexivity|]; unfold cursor in X; cbn in X; congruence|].
    exfalso. unfold cursor in X. cbn in X. injection X as <- X. destruct c as [|c2 c]; [discriminate X|].
    injection X as <- X. apply Hx. exists a, c. reflexivity.
  - exfalso. unfold cursor in Y. cbn in Y. injection Y as <- Y. destruct d as [|d1 d]; [discriminate Y|].
    injection Y as <- Y. apply Ha. rewrite X. exists x, d. reflexivity.
Qed.
Lemma shown_some t s q : shown t s (Some q) ->
  (exists a b, t = a ++ cursor ++ b /\ ~ occurs cursor (a ++ b) /\ s = a ++ b /\ q = inr (tlen a)) \/
  (exists a b c, t = a ++ cursor ++ b ++ cursor ++ c /\ ~ occurs cursor (a ++ b) /\ s = a ++ b ++ c /\
     q = inl (tlen a, tlen a + tlen b)).
Proof.
  intros H. inversion H; subst.
  - left. exists a, b. auto.
  - right. exists a, b, c. auto.
Qed.
(** What an entry shows and marks is unique. *)
Lemma shown_unique t s p s' p' : shown t s p -> shown t s' p' -> s = s' /\ p = p'.
Proof.
  intros H H'.
  destruct p as [q|], p' as [q'|].
  - destruct (shown_some _ _ _ H) as [(a & b & E & Na & -> & ->)|(a & b & c & E & Na & -> & ->)];
    destruct (shown_some _ _ _ H') as [(x & y & F & Nx & -> & ->)|(x & y & z & F & Nx & -> & ->)];
    rewrite E in F; destruct (app_cursor_unique _ _ _ _ F (occurs_left _ _ _ Na) (occurs_left _ _ _ Nx)) as [<- X].
    + subst. auto.
    + subst. exfalso. apply Na. exists (a ++ y), z. rewrite <- app_assoc. reflexivity.
    + subst. exfalso. apply Nx. exists (a ++ b), c. rewrite <- app_assoc. reflexivity.
    + assert (Y : (a ++ b) ++ cursor ++ c = (a ++ y) ++ cursor ++ z) by (rewrite <- !app_assoc; f_equal; exact X).
      destruct (app_cursor_unique _ _ _ _ Y Na Nx) as [Z ->]. apply app_inv_head in Z. subst. auto.
  - destruct (shown_none _ _ H' (shown_marks _ _ _ H)).
  - destruct (shown_none _ _ H (shown_marks _ _ _ H')).
  - split; [|reflexivity].
    assert (W : forall t, occurs escaped_cursor t -> occurs cursor t).
    { intros u (x & y & ->). exists (x ++ [92]), y. rewrite <- app_assoc. reflexivity. }
    inversion H as [? P|? ? P U| |]; subst; inversion H' as [? P'|? ? P' U'| |]; subst; auto.
    + exfalso. auto.
    + exfalso. auto.
    + apply unescape_spec in U, U'. congruence.
Qed.

(** ** The loop *)

Lemma fx_loop_app es e s : fx_loop (es ++ [e]) s = let! s := fx_loop es s in fx_step s e.
Proof.
  revert s. induction es as [|x es IH]; intros s; cbn [app fx_loop bind].
  - destruct (fx_step s e); reflexivity.
  - destruct (fx_step s x); cbn [bind]; [apply IH|reflexivity|reflexivity].
Qed.

Definition started (es : list fixture) : nat := List.length (filter starts_root es).
Lemma root_number_old es e i : (i < List.length es)%nat -> root_number (es ++ [e]) i = root_number es i.
Proof.
  intros H. unfold root_number. rewrite firstn_app. replace (S i - List.length es)%nat with 0%nat by lia.
  cbn [firstn]. rewrite app_nil_r. reflexivity.
Qed.
Lemma root_number_new es e : root_number (es ++ [e]) (List.length es) = (started es + if starts_root e then 1 else 0)%nat.
Proof.
  unfold root_number, started. rewrite firstn_all2 by (rewrite app_length; cbn; lia).
  rewrite filter_app, app_length. cbn [filter]. destruct (starts_root e); cbn [List.length]; lia.
Qed.
Lemma nth_error_Some_lt {A} (l : list A) i x : nth_error l i = Some x -> (i < List.length l)%nat.
Proof. intros H. apply nth_error_Some. congruence. Qed.
Lemma nth_snoc {A} (l : list A) x i y : nth_error (l ++ [x]) i = Some y <->
  (nth_error l i = Some y) \/ (i = List.length l /\ y = x).
Proof.
  destruct (Nat.lt_ge_cases i (List.length l)) as [H|H].
  - rewrite nth_error_app1 by exact H. split; [auto|]. intros [E|[E _]]; [exact E|lia].
  - rewrite nth_error_app2 by exact H. split.
    + intros E. destruct (i - List.length l)%nat as [|k] eqn:D; [|destruct k; discriminate E].
      injection E as <-. right. split; [lia|reflexivity].
    + intros [E|[-> ->]]; [apply nth_error_Some_lt in E; lia|]. rewrite Nat.sub_diag. reflexivity.
Qed.
Lemma started_snoc es e : started (es ++ [e]) = (started es + if starts_root e then 1 else 0)%nat.
Proof. unfold started. rewrite filter_app, app_length. cbn [filter]. destruct (starts_root e); reflexivity. Qed.
Lemma root_number_le es i : (root_number es i <= started es)%nat.
Proof.
  unfold root_number, started. rewrite <- (firstn_skipn (S i) es) at 2. rewrite filter_app, app_length. lia.
Qed.

Record inv (es : list fixture) (s : fx_state) : Prop := {
  i_files : fx_files s = map N.of_nat (seq 0 (List.length es));
  i_next : fx_next s = N.of_nat (List.length es);
  i_ids : map fst (fx_changes s) = fx_files s;
  i_texts : forall i e, nth_error es i = Some e ->
    exists t p, shown (fx_text e) t p /\ nth_error (fx_changes s) i = Some (N.of_nat i, Some t);
  i_position : forall id p, fx_position s = Some (id, p) <->
    exists i e t, id = N.of_nat i /\ nth_error es i = Some e /\ shown (fx_text e) t (Some p);
  i_len : List.length (fx_close s) = S (started es);
  i_root : forall r root, nth_error (fx_close s) r = Some root ->
    root_is es r (sr_library root) /\
    forall id p, fs_path_for_file (sr_files root) id = Some p <->
      exists i e, id = N.of_nat i /\ nth_error es i = Some e /\ root_number es i = r /\ p = Virtual (fx_path e) }.

Definition fine (e : fixture) : Prop :=
  (exists r, fx_path e = 47 :: r) /\ (fx_deps e = [] \/ fx_krate e <> None) /\
  (fx_root e = None \/ fx_root e = Some (`"local") \/ fx_root e = Some (`"library")).

Lemma root_kind_spec e :
  match root_kind (fx_root e) with
  | Ok k => fx_root e = option_map (fun b : bool => if b then `"library" else `"local") k
  | _ => fx_root e <> None /\ fx_root e <> Some (`"local") /\ fx_root e <> Some (`"library")
  end.
Proof.
  unfold root_kind. destruct (fx_root e) as [k|]; [|reflexivity].
  destruct (text_eqb k (`"local")) eqn:E; [apply text_eqb_eq in E; subst; reflexivity|].
  destruct (text_eqb k (`"library")) eqn:F; [apply text_eqb_eq in F; subst; reflexivity|].
  repeat split; [discriminate| |]; intros X; injection X as ->; rewrite text_eqb_refl in *; discriminate.
Qed.

(** a step that succeeds *)
Lemma fx_step_ok s e s' : tlen (fx_text e) < u32_bound -> fx_step s e = Ok s' ->
  fine e /\
  exists t p k, shown (fx_text e) t p /\
    (p = None /\ fx_position s' = fx_position s \/
     exists q, p = Some q /\ fx_position s = None /\ fx_position s' = Some (fx_next s, q)) /\
    fx_root e = option_map (fun b : bool => if b then `"library" else `"local") k /\
    fx_files s' = fx_files s ++ [fx_next s] /\ fx_next s' = fx_next s + 1 /\
    fx_changes s' = fx_changes s ++ [(fx_next s, Some t)] /\
    fx_close s' = match k with
                  | Some b => fx_close s ++ [{| sr_library := b; sr_files := fs_insert file_set_default (fx_next s) (Virtual (fx_path e)) |}]
                  | None => fx_roots s ++ [{| sr_library := fx_library s; sr_files := fs_insert (fx_set s) (fx_next s) (Virtual (fx_path e)) |}]
                  end.
Proof.
  intros L H. unfold fx_step in H. pose proof (entry_text_spec e (fx_next s) (fx_position s) L) as T.
  destruct (entry_text e (fx_next s) (fx_position s)) as [[t pos]|w|] eqn:E; try discriminate H.
  cbn [bind] in H. pose proof (root_kind_spec e) as K.
  destruct (root_kind (fx_root e)) as [k|w|] eqn:R; try discriminate H. cbn [bind] in H.
  destruct (starts_with (fx_path e) [cSlash]) eqn:P; [|discriminate H]. cbn [assert_ bind] in H.
  destruct (match fx_deps e, fx_krate e with _ :: _, None => false | _, _ => true end) eqn:D; [|discriminate H].
  cbn [assert_ bind] in H.
  assert (Fi : fine e).
  { split; [|split].
    - apply starts_with_prefix in P. destruct P as (r & P). exists r. exact P.
    - destruct (fx_deps e); [left; reflexivity|]. right. destruct (fx_krate e); [discriminate|discriminate D].
    - destruct k as [[|]|]; cbn in K; auto. }
  split; [exact Fi|]. destruct T as (p & Sh & Po). exists t, p, k. split; [exact Sh|].
  destruct k as [b|]; cbn [assert_ bind] in H; unfold u32_add in H;
    (destruct (fx_next s + 1 <? u32_bound); [|discriminate H]); cbn [bind] in H; injection H as <-; cbn;
    repeat split; auto.
Qed.

Lemma fs_insert_path f id p k : fs_path_for_file (fs_insert f id p) k = if k =? id then Some p else fs_path_for_file f k.
Proof.
  unfold fs_path_for_file, fs_insert. cbn [fs_paths]. destruct (N.eqb_spec k id) as [->|N].
  - apply (alookup_insert _ Neqb_spec).
  - apply (alookup_insert_ne _ Neqb_spec). congruence.
Qed.
Lemma root_is_old es e r b : root_is es r b -> root_is (es ++ [e]) r b.
Proof.
  intros [H|(i & x & N & R & K)]; [left; exact H|]. right. exists i, x.
  pose proof (nth_error_Some_lt _ _ _ N). rewrite nth_error_app1, root_number_old by assumption. auto.
Qed.

Lemma inv_start : inv [] fx_start.
Proof.
  constructor; try reflexivity.
  - intros i e H. destruct i; discriminate H.
  - intros id p. split; [discriminate|]. intros (i & e & t & _ & H & _). destruct i; discriminate H.
  - intros r root H. destruct r as [|[|r]]; [|discriminate H|discriminate H]. injection H as <-. split; [left; auto|].
    intros id p. split; [discriminate|]. intros (i & e & _ & H & _). destruct i; discriminate H.
Qed.
Lemma inv_step es e s s' : tlen (fx_text e) < u32_bound -> inv es s -> fx_step s e = Ok s' -> inv (es ++ [e]) s'.
Proof.
  intros L I H. destruct (fx_step_ok s e s' L H) as (Fi & t & p & k & Sh & Po & K & E1 & E2 & E3 & E4). clear H.
  pose proof (i_next _ _ I) as Nx.
  assert (Len : List.length (fx_changes s) = List.length es).
  { rewrite <- (map_length fst), (i_ids _ _ I), (i_files _ _ I), map_length, seq_length. reflexivity. }
  constructor.
  - rewrite E1, (i_files _ _ I), Nx, app_length. cbn [List.length]. rewrite Nat.add_1_r, seq_S, map_app. reflexivity.
  - rewrite E2, Nx, app_length. cbn [List.length]. lia.
  - rewrite E3, E1, map_app, (i_ids _ _ I). reflexivity.
  - intros i x Hx. apply nth_snoc in Hx. destruct Hx as [Hx|[-> ->]].
    + destruct (i_texts _ _ I i x Hx) as (t' & p' & S' & C'). exists t', p'. split; [exact S'|].
      rewrite E3. apply nth_snoc. left. exact C'.
    + exists t, p. split; [exact Sh|]. rewrite E3. apply nth_snoc. right. rewrite Nx. auto.
  - intros id q. destruct Po as [[-> ->]|(q0 & -> & Pn & ->)].
    + rewrite (i_position _ _ I). split; intros (i & x & t' & -> & Hx & S').
      * exists i, x, t'. split; [reflexivity|]. split; [apply nth_snoc; left; exact Hx|exact S'].
      * apply nth_snoc in Hx. destruct Hx as [Hx|[-> ->]]; [exists i, x, t'; auto|].
        destruct (shown_unique _ _ _ _ _ Sh S') as [_ X]. discriminate X.
    + split.
      * intros X. injection X as <- <-. exists (List.length es), e, t. split; [exact Nx|].
        split; [apply nth_snoc; right; auto|exact Sh].
      * intros (i & x & t' & -> & Hx & S'). apply nth_snoc in Hx. destruct Hx as [Hx|[-> ->]].
        -- exfalso. assert (X : fx_position s = Some (N.of_nat i, q)) by (apply (i_position _ _ I); exists i, x, t'; auto).
           congruence.
        -- destruct (shown_unique _ _ _ _ _ Sh S') as [_ X]. injection X as ->. rewrite Nx. reflexivity.
  - rewrite E4, started_snoc. pose proof (i_len _ _ I) as Ln. unfold starts_root. rewrite K. unfold fx_close in *.
    destruct k; cbn [option_map]; rewrite !app_length in *; cbn [List.length] in *; lia.
  - intros r root Hr. rewrite E4 in Hr. pose proof (i_len _ _ I) as Ln.
    assert (SR : starts_root e = match k with Some _ => true | None => false end)
      by (unfold starts_root; rewrite K; destruct k; reflexivity).
    destruct k as [b|].
    + apply nth_snoc in Hr. destruct Hr as [Hr|[-> ->]].
      * destruct (i_root _ _ I r root Hr) as [R1 R2]. split; [apply root_is_old; exact R1|].
        intros id q. rewrite R2. split; intros (i & x & -> & Hx & Rn & ->).
        -- exists i, x. pose proof (nth_error_Some_lt _ _ _ Hx). rewrite root_number_old by assumption.
           repeat split; auto. apply nth_snoc. left. exact Hx.
        -- apply nth_snoc in Hx. destruct Hx as [Hx|[-> ->]].
           ++ pose proof (nth_error_Some_lt _ _ _ Hx). rewrite root_number_old in Rn by assumption. exists i, x. auto.
           ++ exfalso. rewrite root_number_new, SR in Rn. apply nth_error_Some_lt in Hr. lia.
      * cbn [sr_library sr_files]. split.
        -- right. exists (List.length es), e. rewrite root_number_new, SR. split; [apply nth_snoc; right; auto|].
           split; [lia|exact K].
        -- intros id q. rewrite fs_insert_path. split.
           ++ destruct (N.eqb_spec id (fx_next s)) as [->|Ne]; [|discriminate]. intros X. injection X as <-.
              exists (List.length es), e. rewrite root_number_new, SR. split; [exact Nx|].
              split; [apply nth_snoc; right; auto|]. split; [lia|reflexivity].
           ++ intros (i & x & -> & Hx & Rn & ->). apply nth_snoc in Hx. destruct Hx as [Hx|[-> ->]].
              ** pose proof (nth_error_Some_lt _ _ _ Hx). rewrite root_number_old in Rn by assumption.
                 pose proof (root_number_le es i). lia.
              ** rewrite Nx, N.eqb_refl. reflexivity.
    + apply nth_snoc in Hr. unfold fx_close in *. rewrite app_length in Ln. cbn [List.length] in Ln.
      destruct Hr as [Hr|[-> ->]].
      * assert (Hr' : nth_error (fx_roots s ++ [{| sr_library := fx_library s; sr_files := fx_set s |}]) r = Some root)
          by (apply nth_snoc; left; exact Hr).
        destruct (i_root _ _ I r root Hr') as [R1 R2]. split; [apply root_is_old; exact R1|].
        intros id q. rewrite R2. split; intros (i & x & -> & Hx & Rn & ->).
        -- exists i, x. pose proof (nth_error_Some_lt _ _ _ Hx). rewrite root_number_old by assumption.
           repeat split; auto. apply nth_snoc. left. exact Hx.
        -- apply nth_snoc in Hx. destruct Hx as [Hx|[-> ->]].
           ++ pose proof (nth_error_Some_lt _ _ _ Hx). rewrite root_number_old in Rn by assumption. exists i, x. auto.
           ++ exfalso. rewrite root_number_new, SR in Rn. apply nth_error_Some_lt in Hr. lia.
      * assert (Hr' : nth_error (fx_roots s ++ [{| sr_library := fx_library s; sr_files := fx_set s |}]) (List.length (fx_roots s))
                      = Some {| sr_library := fx_library s; sr_files := fx_set s |}) by (apply nth_snoc; right; auto).
        destruct (i_root _ _ I _ _ Hr') as [R1 R2]. cbn [sr_library sr_files] in *. split; [apply root_is_old; exact R1|].
        intros id q. rewrite fs_insert_path. split.
        -- destruct (N.eqb_spec id (fx_next s)) as [->|Ne].
           ++ intros X. injection X as <-. exists (List.length es), e. rewrite root_number_new, SR. split; [exact Nx|].
              split; [apply nth_snoc; right; auto|]. split; [lia|reflexivity].
           ++ intros X. apply R2 in X. destruct X as (i & x & -> & Hx & Rn & ->). exists i, x.
              pose proof (nth_error_Some_lt _ _ _ Hx). rewrite root_number_old by assumption.
              repeat split; auto. apply nth_snoc. left. exact Hx.
        -- intros (i & x & -> & Hx & Rn & ->). apply nth_snoc in Hx. destruct Hx as [Hx|[-> ->]].
           ++ pose proof (nth_error_Some_lt _ _ _ Hx). rewrite root_number_old in Rn by assumption.
              destruct (N.eqb_spec (N.of_nat i) (fx_next s)) as [X|_]; [lia|]. apply R2. exists i, x. auto.
           ++ rewrite Nx, N.eqb_refl. reflexivity.
Qed.
Definition small (e : fixture) : Prop := tlen (fx_text e) < u32_bound.
Lemma fx_loop_inv es : Forall small es -> forall s, fx_loop es fx_start = Ok s -> inv es s /\ Forall fine es.
Proof.
  induction es as [|e es IH] using rev_ind; intros F s H.
  - injection H as <-. split; [apply inv_start|constructor].
  - apply Forall_app in F. destruct F as [F Fe]. inversion Fe; subst.
    rewrite fx_loop_app in H. destruct (fx_loop es fx_start) as [s0|w|]; try discriminate H. cbn [bind] in H.
    destruct (IH F s0 eq_refl) as [I Fi]. split; [apply (inv_step es e s0 s); assumption|].
    apply Forall_app. split; [exact Fi|]. constructor; [|constructor].
    exact (proj1 (fx_step_ok s0 e s H2 H)).
Qed.

(** when a step fails *)
Lemma fx_step_fails s e : small e -> fx_next s + 1 < u32_bound ->
  fine e -> ~ garbled (fx_text e) -> (marks (fx_text e) -> fx_position s = None) -> exists s', fx_step s e = Ok s'.
Proof.
  intros L Nx (F1 & F2 & F3) G M. unfold fx_step. pose proof (entry_text_spec e (fx_next s) (fx_position s) L) as T.
  assert (X : exists t pos, entry_text e (fx_next s) (fx_position s) = Ok (t, pos)).
  { destruct (entry_text e (fx_next s) (fx_position s)) as [[t pos]|w|]; [eauto| |];
      (destruct T as [T|[T1 T2]]; [contradiction|destruct (T2 (M T1))]). }
  destruct X as (t & pos & ->). cbn [bind].
  assert (K : exists k, root_kind (fx_root e) = Ok k).
  { destruct F3 as [-> |[-> | ->]]; eexists; reflexivity. }
  destruct K as (k & ->). cbn [bind]. destruct F1 as (r & F1). rewrite F1.
  change (starts_with (47 :: r) [cSlash]) with (starts_with ([cSlash] ++ r) [cSlash]). rewrite starts_with_app. cbn [assert_ bind].
  assert (D : match fx_deps e, fx_krate e with _ :: _, None => false | _, _ => true end = true).
  { destruct F2 as [->|F2]; [reflexivity|]. destruct (fx_deps e), (fx_krate e); try reflexivity. contradiction. }
  rewrite D. cbn [assert_ bind]. unfold u32_add. replace (fx_next s + 1 <? u32_bound) with true by lia.
  destruct k; cbn [assert_ bind]; eexists; reflexivity.
Qed.
Lemma fx_loop_total es : Forall small es -> N.of_nat (List.length es) < u32_bound -> acceptable es ->
  exists s, fx_loop es fx_start = Ok s.
Proof.
  induction es as [|e es IH] using rev_ind; intros F L A; [eexists; reflexivity|].
  apply Forall_app in F. destruct F as [F Fe]. inversion Fe; subst. rewrite app_length in L. cbn [List.length] in L.
  destruct A as [A1 A2].
  destruct IH as (s & Hs); [exact F|lia| |].
  { split; [intros x Hx; apply A1; apply in_or_app; left; exact Hx|].
    intros i j x y Hx Hy. apply (A2 i j x y); apply nth_snoc; left; assumption. }
  rewrite fx_loop_app, Hs. cbn [bind]. destruct (fx_loop_inv es F s Hs) as [I _].
  destruct (A1 e) as (B1 & B2 & B3 & B4); [apply in_or_app; right; left; reflexivity|].
  apply fx_step_fails; auto.
  - rewrite (i_next _ _ I). lia.
  - split; auto.
  - intros M. destruct (fx_position s) as [[id p]|] eqn:P; [|reflexivity]. exfalso.
    apply (i_position _ _ I) in P. destruct P as (i & x & t & _ & Hx & Sh).
    assert (X : i = List.length es).
    { apply (A2 i (List.length es) x e); [apply nth_snoc; left; exact Hx|apply nth_snoc; right; auto| |exact M].
      exact (shown_marks _ _ _ Sh). }
    apply nth_error_Some_lt in Hx. lia.
Qed.
Lemma fx_loop_acceptable es s : Forall small es -> fx_loop es fx_start = Ok s -> acceptable es.
Proof.
  intros F H. destruct (fx_loop_inv es F s H) as [I Fi]. split.
  - intros e He. rewrite Forall_forall in Fi. destruct (Fi e He) as (B1 & B2 & B3). repeat split; auto.
    apply In_nth_error in He. destruct He as (i & He).
    destruct (i_texts _ _ I i e He) as (t & p & Sh & _). intros G. exact (shown_not_garbled _ _ _ Sh G).
  - intros i j e f He Hf Me Mf.
    assert (Q : forall i e, nth_error es i = Some e -> marks (fx_text e) -> exists p, fx_position s = Some (N.of_nat i, p)).
    { clear -I. intros i e He M. destruct (i_texts _ _ I i e He) as (t & p & Sh & _).
      destruct p as [p|]; [|destruct (shown_none _ _ Sh M)]. exists p. apply (i_position _ _ I). exists i, e, t. auto. }
    destruct (Q i e He Me) as (p & P1). destruct (Q j f Hf Mf) as (q & P2). rewrite P1 in P2. injection P2 as X _.
    lia.
Qed.
