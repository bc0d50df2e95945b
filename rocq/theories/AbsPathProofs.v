From Coq Require Import String.
From Verif Require Import Base BaseProofs Utf8 Vfs VfsPath PathSpec PathProofs AbsPath AbsPathSpec.
Local Open Scope N_scope.

(** ** Splitting at slashes *)

Lemma split_slash_app a b : split_slash (a ++ cSlash :: b) = split_slash a ++ split_slash b.
Proof.
  induction a as [|c a IH]; cbn [app split_slash].
  - rewrite N.eqb_refl. reflexivity.
  - rewrite IH. destruct (c =? cSlash) eqn:E; [reflexivity|].
    destruct (split_slash_spec a) as [H _]. destruct (split_slash a); [contradiction|reflexivity].
Qed.
Lemma split_slash_one s : no_slash s -> split_slash s = [s].
Proof.
  unfold no_slash. induction s as [|c s IH]; intros H; cbn [split_slash]; [reflexivity|].
  destruct (N.eqb_spec c cSlash) as [E|_]; [exfalso; apply H; left; auto|].
  rewrite IH; [reflexivity|]. intros X. apply H. right. exact X.
Qed.
Lemma split_unsplit l : l <> [] -> Forall no_slash l -> split_slash (unsplit l) = l.
Proof.
  intros H F. induction F as [|s l Hs F IH]; [contradiction|].
  destruct l as [|x l]; cbn [unsplit].
  - apply split_slash_one. exact Hs.
  - change (match l with [] => x | _ :: _ => x ++ cSlash :: unsplit l end) with (unsplit (x :: l)).
    rewrite split_slash_app, (split_slash_one s Hs), IH by discriminate. reflexivity.
Qed.
Lemma joined_unsplit l : joined l = unsplit l.
Proof.
  induction l as [|s [|x l] IH]; [reflexivity|reflexivity|].
  change (joined (s :: x :: l)) with (s ++ cSlash :: joined (x :: l)). rewrite IH. reflexivity.
Qed.
Lemma parts_of_iff p parts : parts_of p parts <-> parts = split_slash p.
Proof.
  split.
  - intros (H1 & H2 & ->). symmetry. apply split_unsplit; assumption.
  - intros ->. destruct (split_slash_spec p) as (H1 & H2 & H3). repeat split; auto.
Qed.

(** ** Parts that are components *)

Definition live (s : bytes) : bool := negb (idle s).
Definition ws (p : bytes) : list bytes := filter live (split_slash p).

Lemma comp_of_idle s : idle s = true -> comp_of s = [].
Proof.
  destruct s as [|a [|b [|c r]]]; cbn [idle comp_of]; try discriminate; [reflexivity|].
  intros H. unfold cDot. rewrite H. reflexivity.
Qed.
Lemma comp_of_live s : live s = true -> comp_of s = [comp_parse s].
Proof.
  unfold live. destruct s as [|a [|b [|c r]]]; cbn [idle comp_of comp_parse negb]; try discriminate; try reflexivity.
  - unfold cDot. destruct (a =? 46); [discriminate|reflexivity].
  - intros _. unfold cDot. destruct ((a =? 46) && (b =? 46)); reflexivity.
Qed.
Lemma comps_filter l : flat_map comp_of l = map comp_parse (filter live l).
Proof.
  induction l as [|s l IH]; [reflexivity|]. cbn [flat_map filter]. destruct (live s) eqn:E.
  - rewrite (comp_of_live s E), IH. reflexivity.
  - rewrite comp_of_idle, IH; [reflexivity|]. unfold live in E. destruct (idle s); [reflexivity|discriminate].
Qed.
Lemma comp_parse_up s : comp_parse s = ParentDir <-> s = `"..".
Proof.
  split; [|intros ->; reflexivity].
  destruct s as [|a [|b [|c r]]]; try discriminate. cbn [comp_parse]. unfold cDot.
  destruct (N.eqb_spec a 46) as [->|]; [|discriminate]. destruct (N.eqb_spec b 46) as [->|]; [reflexivity|discriminate].
Qed.
Lemma comp_parse_name s : s <> `".." -> comp_parse s = Normal s.
Proof.
  intros H. destruct s as [|a [|b [|c r]]]; try reflexivity. cbn [comp_parse]. unfold cDot.
  destruct (N.eqb_spec a 46) as [->|]; [|reflexivity]. destruct (N.eqb_spec b 46) as [->|]; [|reflexivity].
  exfalso. apply H. reflexivity.
Qed.
Lemma comp_parse_inj s t : comp_parse s = comp_parse t -> s = t.
Proof.
  intros H. destruct (list_eq_dec N.eq_dec s (`"..")) as [->|Ns].
  - symmetry. apply comp_parse_up. rewrite <- H. reflexivity.
  - rewrite (comp_parse_name s Ns) in H. symmetry in H.
    assert (Nt : t <> `"..") by (intros ->; discriminate H). rewrite (comp_parse_name t Nt) in H. congruence.
Qed.
Lemma map_parse_inj a b : map comp_parse a = map comp_parse b -> a = b.
Proof.
  revert b. induction a as [|x a IH]; intros [|y b] H; try discriminate; [reflexivity|].
  cbn [map] in H. injection H as H1 H2. apply comp_parse_inj in H1. apply IH in H2. congruence.
Qed.

Lemma rooted_iff p : rooted p <-> is_absolute p = true.
Proof.
  unfold rooted, is_absolute. split.
  - intros (r & ->). apply N.eqb_refl.
  - destruct p as [|c r]; [discriminate|]. intros H. apply N.eqb_eq in H. subst c. eauto.
Qed.
Lemma ws_cons r : ws (cSlash :: r) = ws r.
Proof. unfold ws. cbn [split_slash]. rewrite N.eqb_refl. reflexivity. Qed.
Lemma comps_rooted p : rooted p -> path_components p = RootDir :: map comp_parse (ws p).
Proof.
  intros R. unfold path_components. rewrite (proj1 (rooted_iff p) R). cbn [app]. rewrite comps_filter. reflexivity.
Qed.
Lemma ws_app a b : ws (a ++ cSlash :: b) = ws a ++ ws b.
Proof. unfold ws. rewrite split_slash_app. apply filter_app. Qed.
Lemma ws_words p w : words p w <-> w = ws p.
Proof.
  unfold words, ws. split.
  - intros (parts & P & ->). apply parts_of_iff in P. subst parts. reflexivity.
  - intros ->. exists (split_slash p). split; [apply parts_of_iff; reflexivity|reflexivity].
Qed.
Lemma ws_live p : Forall (fun s => live s = true /\ no_slash s) (ws p).
Proof.
  apply Forall_forall. intros s H. apply filter_In in H. destruct H as [H1 H2]. split; [exact H2|].
  destruct (split_slash_spec p) as (_ & F & _). rewrite Forall_forall in F. auto.
Qed.

(** ** Walking *)

Fixpoint walkf (d parts : list bytes) : list bytes :=
  match parts with
  | [] => d
  | s :: r => walkf (if idle s then d else match comp_parse s with ParentDir => removelast d | _ => d ++ [s] end) r
  end.
Lemma idle_up : idle (`"..") = false.
Proof. reflexivity. Qed.
Lemma walk_iff d parts e : Forall no_slash parts -> (walk d parts e <-> e = walkf d parts).
Proof.
  intros F. split.
  - intros W. induction W as [d|d s r e I W IH|d r e W IH|d s r e (I & N & S) W IH]; cbn [walkf]; [reflexivity|..];
      inversion F; subst.
    + rewrite I. auto.
    + cbn. auto.
    + rewrite I, (comp_parse_name s N). auto.
  - intros ->. revert d. induction F as [|s r S F IH]; intros d; cbn [walkf]; [constructor|].
    destruct (idle s) eqn:I; [apply walk_stay; auto|].
    destruct (list_eq_dec N.eq_dec s (`"..")) as [->|N].
    + apply walk_up. cbn [comp_parse]. apply IH.
    + rewrite (comp_parse_name s N). apply walk_down; [repeat split; auto|]. apply IH.
Qed.
Lemma walkf_filter d parts : walkf d (filter live parts) = walkf d parts.
Proof.
  revert d. induction parts as [|s r IH]; intros d; [reflexivity|]. cbn [filter walkf]. unfold live at 1.
  destruct (idle s) eqn:I; cbn [negb walkf]; [apply IH|]. rewrite I. apply IH.
Qed.
Lemma walkf_app d a b : walkf d (a ++ b) = walkf (walkf d a) b.
Proof. revert d. induction a as [|s a IH]; intros d; [reflexivity|]. cbn [app walkf]. apply IH. Qed.
Lemma Forall_removelast {A} (P : A -> Prop) l : Forall P l -> Forall P (removelast l).
Proof.
  intros F. induction F as [|x l H F IH]; [constructor|]. cbn [removelast]. destruct l; [constructor|].
  constructor; assumption.
Qed.
Lemma walkf_names d parts : Forall no_slash parts -> Forall name d -> Forall name (walkf d parts).
Proof.
  intros F. revert d. induction F as [|s r S F IH]; intros d D; [exact D|]. cbn [walkf]. apply IH.
  destruct (idle s) eqn:I; [exact D|].
  destruct (list_eq_dec N.eq_dec s (`"..")) as [->|N]; [cbn [comp_parse]; apply Forall_removelast; exact D|].
  rewrite (comp_parse_name s N). apply Forall_app. split; [exact D|]. constructor; [repeat split; auto|constructor].
Qed.
Lemma walkf_name_list d ns : Forall name ns -> walkf d ns = d ++ ns.
Proof.
  intros F. revert d. induction F as [|s r (I & N & S) F IH]; intros d; cbn [walkf]; [symmetry; apply app_nil_r|].
  rewrite I, (comp_parse_name s N), IH, <- app_assoc. reflexivity.
Qed.
Lemma leads_iff d p e :
  leads d p e <-> e = walkf (if is_absolute p then [] else d) (split_slash p).
Proof.
  split.
  - intros L. destruct L as [p parts e P W|p parts e R P W]; pose proof P as P'; apply parts_of_iff in P; destruct P' as (_ & F & _).
    + cbn [is_absolute split_slash]. rewrite !N.eqb_refl. cbn [walkf idle]. subst parts. apply walk_iff; assumption.
    + assert (A : is_absolute p = false).
      { destruct (is_absolute p) eqn:A; [|reflexivity]. apply rooted_iff in A. destruct A as (r & ->). exfalso. exact (R r eq_refl). }
      rewrite A. subst parts. apply walk_iff; assumption.
  - destruct (is_absolute p) eqn:A.
    + apply rooted_iff in A. destruct A as (r & ->). cbn [split_slash]. rewrite N.eqb_refl. cbn [walkf idle]. intros E.
      apply (leads_absolute d r (split_slash r)); [apply parts_of_iff; reflexivity|].
      apply walk_iff; [apply split_slash_spec|exact E].
    + intros E. apply (leads_relative d p (split_slash p)); [|apply parts_of_iff; reflexivity|].
      * intros r ->. cbn in A. discriminate A.
      * apply walk_iff; [apply split_slash_spec|exact E].
Qed.

(** ** Spellings *)

Lemma name_no_slash ns : Forall name ns -> Forall no_slash ns.
Proof. intros F. eapply Forall_impl; [|exact F]. intros s (_ & _ & S). exact S. Qed.
Lemma name_live s : name s -> live s = true.
Proof. intros (I & _). unfold live. rewrite I. reflexivity. Qed.
Lemma filter_live ns : Forall name ns -> filter live ns = ns.
Proof.
  intros F. induction F as [|s r S F IH]; [reflexivity|]. cbn [filter]. rewrite (name_live s S), IH. reflexivity.
Qed.
Lemma ws_unsplit l : Forall no_slash l -> ws (unsplit l) = filter live l.
Proof.
  intros F. destruct l as [|s l]; [reflexivity|]. unfold ws. rewrite split_unsplit; [reflexivity|discriminate|exact F].
Qed.
Lemma ws_spelling ns : Forall name ns -> ws (spelling ns) = ns.
Proof.
  intros F. unfold spelling. rewrite ws_cons, ws_unsplit by (apply name_no_slash; exact F). apply filter_live. exact F.
Qed.
Lemma spelling_inj a b : Forall name a -> Forall name b -> spelling a = spelling b -> a = b.
Proof. intros A B E. rewrite <- (ws_spelling a A), <- (ws_spelling b B), E. reflexivity. Qed.
Lemma spelling_rooted ns : rooted (spelling ns).
Proof. eexists. reflexivity. Qed.
Lemma spelling_real ns : spelling ns = real_str ns.
Proof.
  unfold spelling, real_str. destruct ns as [|s l]; [reflexivity|].
  revert s. induction l as [|x l IH]; intros s; [cbn; rewrite app_nil_r; reflexivity|].
  cbn [flat_map app] in *. rewrite <- IH. reflexivity.
Qed.

Lemma need_sep_spelling ns : Forall name ns -> need_sep (spelling ns) = match ns with [] => false | _ => true end.
Proof.
  intros F. unfold need_sep, spelling. destruct ns as [|s0 l0]; [reflexivity|].
  destruct (exists_last (l := s0 :: l0)) as (l & s & E); [discriminate|]. rewrite E in *. clear E s0 l0.
  apply Forall_app in F. destruct F as [_ F]. inversion F as [|? ? (I & N & S) _]; subst.
  assert (G : forall c, rev (c :: unsplit (l ++ [s])) = match rev s with x :: y => x :: y ++ rev (c :: firstn (length (unsplit (l ++ [s])) - length s) (unsplit (l ++ [s]))) | [] => rev (c :: unsplit (l ++ [s])) end).
  { intros c. destruct (rev s) as [|x y] eqn:R; [reflexivity|].
    assert (Es : exists a, unsplit (l ++ [s]) = a ++ s).
    { destruct l as [|z l]; [exists []; reflexivity|]. rewrite unsplit_snoc by discriminate.
      exists (unsplit (z :: l) ++ [cSlash]). rewrite <- app_assoc. reflexivity. }
    destruct Es as (a & ->). rewrite app_length, Nat.add_sub, firstn_app, Nat.sub_diag, firstn_all. cbn [firstn]. rewrite app_nil_r.
    change (c :: a ++ s) with ((c :: a) ++ s). rewrite rev_app_distr, R. reflexivity. }
  rewrite G. destruct (rev s) as [|x y] eqn:R.
  - apply (f_equal (@rev _)) in R. rewrite rev_involutive in R. subst s. discriminate I.
  - destruct (N.eqb_spec x cSlash) as [->|]; [|reflexivity]. exfalso. apply S. apply in_rev. rewrite R. left. reflexivity.
Qed.
Lemma name_relative s : name s -> is_absolute s = false.
Proof.
  intros (_ & _ & S). destruct (is_absolute s) eqn:A; [|reflexivity]. apply rooted_iff in A. destruct A as (r & ->).
  exfalso. apply S. left. reflexivity.
Qed.
Lemma push_spelling ns s : Forall name ns -> name s -> path_push (spelling ns) s = spelling (ns ++ [s]).
Proof.
  intros F S. unfold path_push. rewrite (name_relative s S), (need_sep_spelling ns F). unfold spelling.
  destruct ns as [|x l]; [reflexivity|]. rewrite unsplit_snoc by discriminate. reflexivity.
Qed.

(** ** Trimming *)
Lemma trimmed_live l : trimmed l = [] \/ exists s r, trimmed l = s :: r /\ live s = true.
Proof.
  induction l as [|s l IH]; [left; reflexivity|]. cbn [trimmed]. destruct (live s) eqn:E.
  - right. exists s, l. rewrite (comp_of_live s E). auto.
  - rewrite comp_of_idle; [exact IH|]. unfold live in E. destruct (idle s); [reflexivity|discriminate].
Qed.
Lemma trimmed_split l : exists pre, l = pre ++ trimmed l /\ filter live pre = [].
Proof.
  induction l as [|s l IH]; [exists []; auto|]. cbn [trimmed]. destruct (live s) eqn:E.
  - exists []. rewrite (comp_of_live s E). auto.
  - destruct IH as (pre & H1 & H2). exists (s :: pre). rewrite comp_of_idle.
    + cbn [app filter]. rewrite E. split; [f_equal; exact H1|exact H2].
    + unfold live in E. destruct (idle s); [reflexivity|discriminate].
Qed.
Lemma trimmed_filter l : filter live (trimmed l) = filter live l.
Proof.
  destruct (trimmed_split l) as (pre & H1 & H2). rewrite H1 at 2. rewrite filter_app, H2. reflexivity.
Qed.
Lemma trimmed_names l : Forall name l -> trimmed l = l.
Proof.
  intros F. destruct F as [|s r S F]; [reflexivity|]. cbn [trimmed]. rewrite (comp_of_live s (name_live s S)). reflexivity.
Qed.
Lemma filter_rev {A} (f : A -> bool) l : filter f (rev l) = rev (filter f l).
Proof.
  induction l as [|x l IH]; [reflexivity|]. cbn [rev filter]. rewrite filter_app, IH. cbn [filter].
  destruct (f x); [reflexivity|]. apply app_nil_r.
Qed.
Lemma Forall_suffix {A} (P : A -> Prop) l pre r : l = pre ++ r -> Forall P l -> Forall P r.
Proof. intros -> F. apply Forall_app in F. apply F. Qed.

(** ** Parents *)
Lemma path_start_rooted r : path_start (cSlash :: r) = ([cSlash], r).
Proof. unfold path_start. cbn [is_absolute]. rewrite N.eqb_refl. reflexivity. Qed.
Lemma parent_rooted p : rooted p ->
  match path_parent p with
  | None => ws p = []
  | Some q => rooted q /\ (exists more, p = q ++ more) /\ exists s, ws p = ws q ++ [s]
  end.
Proof.
  intros (r & ->). unfold path_parent. rewrite path_start_rooted. cbn [is_absolute]. rewrite N.eqb_refl, ws_cons.
  destruct (trimmed_split (rev (split_slash r))) as (pre & E & P). pose proof (trimmed_live (rev (split_slash r))) as L.
  destruct (trimmed (rev (split_slash r))) as [|s l].
  - unfold ws. rewrite app_nil_r in E. rewrite <- (rev_involutive (split_slash r)), filter_rev, E, P. reflexivity.
  - destruct L as [L|(s' & l' & L & Hs)]; [discriminate L|]. injection L as <- <-.
    destruct (trimmed_split l) as (mid & E2 & P2). set (k := trimmed l) in *.
    assert (Es : split_slash r = rev k ++ rev mid ++ s :: rev pre).
    { rewrite <- (rev_involutive (split_slash r)), E, E2. rewrite rev_app_distr. cbn [rev]. rewrite rev_app_distr, <- !app_assoc. reflexivity. }
    assert (Fk : Forall no_slash (rev k)).
    { destruct (split_slash_spec r) as (_ & F & _). rewrite Es in F. apply Forall_app in F. apply F. }
    split; [eexists; reflexivity|]. split.
    + destruct (split_slash_spec r) as (_ & _ & U). rewrite joined_unsplit.
      assert (Hr : r = unsplit (rev k ++ rev mid ++ s :: rev pre)) by (rewrite <- Es, U; reflexivity). rewrite Hr. clear Hr. cbn [app].
      assert (G : forall a b : list bytes, b <> [] -> exists more, unsplit (a ++ b) = unsplit a ++ more).
      { clear. intros a b B. induction a as [|x a IH]; [exists (unsplit b); reflexivity|]. destruct IH as (m & M).
        destruct a as [|y a].
        - cbn [app]. destruct b as [|z b]; [contradiction|]. exists (cSlash :: unsplit (z :: b)). reflexivity.
        - exists m. change (unsplit ((x :: y :: a) ++ b)) with (x ++ cSlash :: unsplit ((y :: a) ++ b)).
          change (unsplit (x :: y :: a)) with (x ++ cSlash :: unsplit (y :: a)). rewrite M, <- app_assoc. reflexivity. }
      destruct (G (rev k) (rev mid ++ s :: rev pre)) as (m & M); [destruct (rev mid); discriminate|].
      exists m. rewrite M. reflexivity.
    + exists s. cbn [app]. rewrite ws_cons, joined_unsplit, ws_unsplit by exact Fk. unfold ws. rewrite Es.
      rewrite !filter_app. cbn [filter]. rewrite Hs, !filter_rev, P, P2. reflexivity.
Qed.
Lemma parent_spelling ns n : Forall name ns -> name n -> path_parent (spelling (ns ++ [n])) = Some (spelling ns).
Proof.
  intros F Hn. unfold path_parent, spelling at 1. rewrite path_start_rooted.
  assert (F' : Forall name (ns ++ [n])) by (apply Forall_app; auto).
  rewrite split_unsplit; [|destruct ns; discriminate|apply name_no_slash; exact F'].
  rewrite trimmed_names by (apply Forall_rev; exact F'). rewrite rev_app_distr. cbn [rev app].
  rewrite trimmed_names by (apply Forall_rev; exact F). rewrite rev_involutive, joined_unsplit. reflexivity.
Qed.
Lemma parent_root : path_parent (spelling []) = None.
Proof. reflexivity. Qed.
Lemma pop_spelling ns : Forall name ns ->
  path_pop (spelling ns) = (spelling (removelast ns), match ns with [] => false | _ => true end).
Proof.
  intros F. unfold path_pop. destruct ns as [|s0 l0]; [reflexivity|].
  destruct (exists_last (l := s0 :: l0)) as (l & s & E); [discriminate|]. rewrite E in *.
  apply Forall_app in F. destruct F as [F1 F2]. inversion F2; subst. rewrite parent_spelling by assumption.
  rewrite removelast_last. destruct l; reflexivity.
Qed.

(** ** Normal form *)
Lemma norm_fold l ns : Forall (fun s => live s = true /\ no_slash s) l -> Forall name ns ->
  fold_left norm_step (map comp_parse l) (spelling ns) = spelling (walkf ns l).
Proof.
  intros F. revert ns. induction F as [|s l (L & S) F IH]; intros ns N; [reflexivity|].
  cbn [map fold_left walkf]. unfold live in L. destruct (idle s) eqn:I; [discriminate L|].
  destruct (list_eq_dec N.eq_dec s (`"..")) as [->|Ne].
  - cbn [comp_parse norm_step]. change ((cDot =? cDot) && (cDot =? cDot)) with true. cbn [norm_step].
    change (comp_parse (`"..")) with ParentDir. cbn [norm_step].
    rewrite pop_spelling by exact N. cbn [fst]. apply IH. apply Forall_removelast. exact N.
  - rewrite (comp_parse_name s Ne). cbn [norm_step].
    assert (Hs : name s) by (repeat split; assumption). rewrite push_spelling by assumption.
    apply IH. apply Forall_app. split; [exact N|]. constructor; [exact Hs|constructor].
Qed.
Lemma normalize_rooted p : rooted p -> abs_normalize p = spelling (walkf [] (split_slash p)).
Proof.
  intros R. unfold abs_normalize. rewrite (comps_rooted p R). cbn [fold_left].
  change (norm_step [] RootDir) with (spelling []). rewrite norm_fold; [|apply ws_live|constructor].
  unfold ws. rewrite walkf_filter. reflexivity.
Qed.
Lemma push_ws p q : rooted p -> is_absolute q = false -> rooted (path_push p q) /\ ws (path_push p q) = ws p ++ ws q.
Proof.
  intros (r & ->) Q. unfold path_push. rewrite Q. split; [eexists; reflexivity|]. unfold need_sep.
  destruct (exists_last (l := cSlash :: r)) as (l & c & E); [discriminate|]. rewrite E, rev_app_distr. cbn [rev app].
  destruct (N.eqb_spec c cSlash) as [->|_]; cbn [negb app].
  - rewrite <- app_assoc. cbn [app]. rewrite !ws_app. change (ws []) with (@nil bytes). rewrite app_nil_r. reflexivity.
  - rewrite ws_app. reflexivity.
Qed.
Lemma join_rooted p q : rooted p -> exists r, abs_join p q = Ok r /\ rooted r /\ r = path_push p q.
Proof.
  intros R. unfold abs_join, abs_path_buf.
  assert (A : rooted (path_push p q)).
  { destruct (is_absolute q) eqn:Q; [|apply push_ws; assumption]. unfold path_push. rewrite Q. apply rooted_iff. exact Q. }
  rewrite (proj1 (rooted_iff _) A). exists (path_push p q). auto.
Qed.
Lemma vfs_join_spelling ns q : Forall name ns ->
  vfs_join (spelling ns) q = Ok (spelling (walkf (if is_absolute q then [] else ns) (split_slash q))).
Proof.
  intros F. unfold vfs_join. destruct (join_rooted (spelling ns) q (spelling_rooted ns)) as (r & -> & R & E). cbn [bind].
  rewrite (normalize_rooted r R). do 2 f_equal. subst r. destruct (is_absolute q) eqn:Q.
  - unfold path_push. rewrite Q. reflexivity.
  - destruct (push_ws (spelling ns) q (spelling_rooted ns) Q) as [_ W].
    rewrite <- walkf_filter. fold (ws (path_push (spelling ns) q)). rewrite W, walkf_app, ws_spelling by exact F.
    rewrite (walkf_name_list [] ns F). cbn [app]. unfold ws. apply walkf_filter.
Qed.

(** ** Comparing *)
Lemma comp_eqb_eq a b : comp_eqb a b = true <-> a = b.
Proof.
  destruct a, b; cbn; try (split; [discriminate|congruence]); try (split; auto).
  - intros H. apply text_eqb_eq in H. congruence.
  - intros H. injection H as ->. apply text_eqb_refl.
Qed.
Lemma comps_eqb_eq a b : comps_eqb a b = true <-> a = b.
Proof.
  revert b. induction a as [|x a IH]; intros [|y b]; cbn; try (split; [discriminate|congruence]); [split; auto|].
  rewrite andb_true_iff, comp_eqb_eq, IH. split; [intros [-> ->]; reflexivity|intros H; injection H as -> ->; auto].
Qed.
Lemma iter_after_iff l pre rest : iter_after l pre = Some rest <-> l = pre ++ rest.
Proof.
  revert l. induction pre as [|y pre IH]; intros l; cbn [iter_after app]; [split; intros H; [injection H as ->|rewrite H]; reflexivity|].
  destruct l as [|x l]; [split; discriminate|]. destruct (comp_eqb x y) eqn:E.
  - apply comp_eqb_eq in E. subst y. rewrite IH. split; [intros ->; reflexivity|intros H; injection H as ->; reflexivity].
  - split; [discriminate|]. intros H. injection H as -> _. rewrite (proj2 (comp_eqb_eq y y) eq_refl) in E. discriminate E.
Qed.
Lemma path_eqb_ws p q : rooted p -> rooted q -> (path_eqb p q = true <-> ws p = ws q).
Proof.
  intros P Q. unfold path_eqb. rewrite comps_eqb_eq, (comps_rooted p P), (comps_rooted q Q). split.
  - intros H. injection H as H. apply map_parse_inj. exact H.
  - intros ->. reflexivity.
Qed.
Lemma map_app_inv {A B} (f : A -> B) l a b : map f l = a ++ b -> exists x y, l = x ++ y /\ map f x = a /\ map f y = b.
Proof. intros H. apply map_eq_app in H. destruct H as (x & y & -> & <- & <-). eauto. Qed.
Lemma starts_with_ws p q : rooted p -> rooted q -> (path_starts_with p q = true <-> exists more, ws p = ws q ++ more).
Proof.
  intros P Q. unfold path_starts_with. rewrite (comps_rooted p P), (comps_rooted q Q). split.
  - destruct (iter_after _ _) as [rest|] eqn:E; [|discriminate]. intros _. apply iter_after_iff in E. injection E as E.
    apply map_app_inv in E. destruct E as (x & y & -> & H & _). apply map_parse_inj in H. subst x. eauto.
  - intros (more & ->). rewrite (proj2 (iter_after_iff _ _ (map comp_parse more))); [reflexivity|].
    rewrite map_app. reflexivity.
Qed.
Lemma ends_with_ws p q : rooted p -> is_absolute q = false -> leading_dot q = false ->
  (path_ends_with p q = true <-> exists front, ws p = front ++ ws q).
Proof.
  intros P Q D. unfold path_ends_with. rewrite (comps_rooted p P). unfold path_components. rewrite Q, D. cbn [app].
  rewrite comps_filter. fold (ws q). split.
  - destruct (iter_after _ _) as [rest|] eqn:E; [|discriminate]. intros _. apply iter_after_iff in E.
    apply (f_equal (@rev comp)) in E. rewrite rev_app_distr, !rev_involutive in E.
    destruct (rev rest) as [|x l].
    + cbn [app] in E. destruct (ws q) as [|y k]; [discriminate E|]. cbn [map] in E. injection E as E _.
      exfalso. destruct (list_eq_dec N.eq_dec y (`"..")) as [->|N]; [discriminate E|]. rewrite (comp_parse_name y N) in E. discriminate E.
    + cbn [app] in E. injection E as _ E. apply map_app_inv in E. destruct E as (a & b & -> & _ & H). apply map_parse_inj in H. subst b. eauto.
  - intros (front & ->). rewrite (proj2 (iter_after_iff _ _ (rev (RootDir :: map comp_parse front)))); [reflexivity|].
    rewrite <- rev_app_distr. cbn [app]. rewrite <- map_app. reflexivity.
Qed.

(** ** Relative remainders *)
Lemma parts_after_some parts w l : parts_after parts (map comp_parse w) = Some l -> Forall (fun s => live s = true) w ->
  exists pre, parts = pre ++ l /\ filter live pre = w.
Proof.
  revert parts. induction w as [|y w IH]; intros parts H F; cbn [map parts_after] in H.
  - injection H as <-. exists []. auto.
  - inversion F; subst. destruct (trimmed_split parts) as (pre & E & P). destruct (trimmed_live parts) as [T|(s & r & T & Ls)]; rewrite T in *; [discriminate H|].
    rewrite (comp_of_live s Ls) in H. destruct (comp_eqb (comp_parse s) (comp_parse y)) eqn:C; [|discriminate H].
    apply comp_eqb_eq, comp_parse_inj in C. subst y. apply IH in H; [|assumption]. destruct H as (pre' & -> & <-).
    exists (pre ++ s :: pre'). rewrite <- app_assoc. split; [exact E|]. rewrite filter_app, P. cbn [filter app]. rewrite Ls. reflexivity.
Qed.
Lemma parts_after_none parts w : parts_after parts (map comp_parse w) = None -> Forall (fun s => live s = true) w ->
  ~ exists more, filter live parts = w ++ more.
Proof.
  revert parts. induction w as [|y w IH]; intros parts H F (more & M); cbn [map parts_after] in H; [discriminate H|].
  inversion F; subst. rewrite <- trimmed_filter in M.
  destruct (trimmed_live parts) as [T|(s & r & T & Ls)]; rewrite T in *; [discriminate M|].
  cbn [filter] in M. rewrite Ls in M. cbn [app] in M. injection M as -> M.
  rewrite (comp_of_live y Ls) in H. rewrite (proj2 (comp_eqb_eq _ _) eq_refl) in H. apply (IH r H); [assumption|]. eauto.
Qed.
Lemma strip_prefix_ws p base : rooted p -> rooted base ->
  match path_strip_prefix p base with
  | Some r => is_absolute r = false /\ leading_dot r = false /\ ws p = ws base ++ ws r
  | None => ~ exists more, ws p = ws base ++ more
  end.
Proof.
  intros (r & ->) B. unfold path_strip_prefix. rewrite (comps_rooted base B). cbn [skipn]. rewrite ws_cons.
  assert (F : Forall (fun s => live s = true) (ws base)).
  { eapply Forall_impl; [|apply ws_live]. intros s [H _]. exact H. }
  destruct (parts_after (split_slash r) (map comp_parse (ws base))) as [parts|] eqn:E.
  - apply parts_after_some in E; [|exact F]. destruct E as (pre & E & P).
    set (x := rev (trimmed (rev (trimmed parts)))).
    assert (X : exists a b, parts = a ++ x ++ b /\ filter live a = [] /\ filter live b = []).
    { destruct (trimmed_split parts) as (a & A1 & A2). destruct (trimmed_split (rev (trimmed parts))) as (b & B1 & B2).
      exists a, (rev b). split; [|split; [exact A2|rewrite filter_rev, B2; reflexivity]].
      apply (f_equal (@rev bytes)) in B1. rewrite rev_involutive, rev_app_distr in B1. fold x in B1. rewrite <- B1. exact A1. }
    destruct X as (a & b & X & Xa & Xb).
    assert (Fx : Forall no_slash x).
    { destruct (split_slash_spec r) as (_ & G & _). rewrite E, X in G. apply Forall_app in G. destruct G as [_ G].
      apply Forall_app in G. destruct G as [_ G]. apply Forall_app in G. apply G. }
    assert (H : x = [] \/ exists s k, x = s :: k /\ live s = true).
    { subst x. destruct (trimmed_live parts) as [T|(s & k & T & Ls)]; rewrite T; [left; reflexivity|]. right.
      destruct (trimmed_split (rev (s :: k))) as (c & C1 & C2). apply (f_equal (@rev bytes)) in C1. rewrite rev_involutive, rev_app_distr in C1.
      destruct (rev (trimmed (rev (s :: k)))) as [|z m].
      - exfalso. cbn [app] in C1. apply (f_equal (filter live)) in C1. rewrite filter_rev, C2 in C1. cbn [filter rev] in C1. rewrite Ls in C1. discriminate C1.
      - exists z, m. split; [reflexivity|]. cbn [app] in C1. injection C1 as -> _. exact Ls. }
    rewrite joined_unsplit.
    assert (W : ws (unsplit x) = filter live x) by (apply ws_unsplit; exact Fx).
    split; [|split].
    + destruct H as [->|(s & k & -> & Ls)]; [reflexivity|]. destruct (is_absolute _) eqn:A; [|reflexivity]. exfalso.
      apply rooted_iff in A. destruct A as (q & A). inversion Fx as [|? ? Hs _]; subst.
      destruct s as [|c s]; [discriminate Ls|]. destruct k; cbn in A; injection A as -> _; apply Hs; left; reflexivity.
    + destruct H as [->|(s & k & -> & Ls)]; [reflexivity|]. inversion Fx as [|? ? Hs _]; subst.
      destruct s as [|c [|d s]]; [discriminate Ls| |].
      * unfold live in Ls. cbn [idle] in Ls. destruct k; cbn; unfold cDot; destruct (c =? 46); try reflexivity; discriminate Ls.
      * assert (D : d =? cSlash = false). { destruct (N.eqb_spec d cSlash) as [->|]; [|reflexivity]. exfalso. apply Hs. right. left. reflexivity. }
        destruct k; cbn; rewrite D, andb_false_r; reflexivity.
    + rewrite W. unfold ws at 1. rewrite E, X, !filter_app, P, Xa, Xb, app_nil_r. reflexivity.
  - apply parts_after_none in E; assumption.
Qed.
