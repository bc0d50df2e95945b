From Verif Require Import Base BaseProofs Vfs VfsProofs VfsPath PathSpec Loader FileSet.
Local Open Scope N_scope.

(** ** normalize_path *)
Definition rooted (l : list comp) : pbuf := {| pb_root := true; pb_comps := l |}.
Lemma fold_rooted l r : ~ In RootDir r ->
  exists l', fold_left normalize_step r (rooted l) = rooted l'.
Proof.
  revert l; induction r as [|c r IH]; intros l H; cbn [fold_left]; [eauto|].
  assert (~ In RootDir r) by (intros ?; apply H; right; auto).
  destruct c; cbn [normalize_step].
  - exfalso; apply H; left; auto.
  - apply IH; auto.
  - unfold pbuf_pop; cbn. apply IH; auto.
  - unfold pbuf_push; cbn. apply IH; auto.
Qed.

Lemma fold_names r names : ~ In RootDir r ->
  exists names', fold_left normalize_step r (rooted (map Normal names)) = rooted (map Normal names').
Proof.
  revert names; induction r as [|c r IH]; intros names H; cbn [fold_left]; [eauto|].
  assert (~ In RootDir r) by (intros ?; apply H; right; auto).
  destruct c; cbn [normalize_step].
  - exfalso; apply H; left; auto.
  - apply IH; auto.
  - unfold pbuf_pop; cbn [pb_root pb_comps rooted].
    replace (removelast (map Normal names)) with (map Normal (removelast names)).
    + apply (IH (removelast names)); auto.
    + clear. induction names as [|a names IHn]; auto. cbn [removelast map].
      destruct names; auto. cbn [map] in *. rewrite IHn. reflexivity.
  - unfold pbuf_push; cbn [pb_root pb_comps rooted].
    replace (map Normal names ++ [Normal s]) with (map Normal (names ++ [s])) by (rewrite map_app; auto).
    apply IH; auto.
Qed.

Lemma normalize_root r :
  normalize_path (RootDir :: r) = pbuf_components (fold_left normalize_step r (rooted [])).
Proof. reflexivity. Qed.

Lemma normalize_clean p : absolute p -> clean (normalize_path p).
Proof.
  intros [r [-> Hr]]. rewrite normalize_root.
  destruct (fold_names r [] Hr) as [n Hn]. change (map Normal []) with (@nil comp) in Hn.
  rewrite Hn. exists n. reflexivity.
Qed.

Lemma normalize_simplifies_gen r names :
  ~ In RootDir r ->
  simplifies (RootDir :: map Normal names ++ r)
             (pbuf_components (fold_left normalize_step r (rooted (map Normal names)))).
Proof.
  revert names; induction r as [|c r IH]; intros names H; cbn [fold_left].
  - rewrite app_nil_r. constructor.
  - assert (Hr : ~ In RootDir r) by (intros ?; apply H; right; auto).
    destruct c; cbn [normalize_step].
    + exfalso; apply H; left; auto.
    + eapply simps_step; [apply simp_dot|]. apply IH; auto.
    + unfold pbuf_pop; cbn [pb_root pb_comps rooted].
      destruct names as [|n0 names0] using rev_ind.
      * cbn [map app removelast]. eapply simps_step; [apply simp_top|]. apply (IH []); auto.
      * rewrite map_app. cbn [map]. rewrite removelast_last, <- app_assoc. cbn [app].
        eapply simps_step; [apply simp_up|]. apply IH; auto.
    + unfold pbuf_push; cbn [pb_root pb_comps rooted].
      specialize (IH (names ++ [s]) Hr). rewrite map_app, <- app_assoc in IH. exact IH.
Qed.
Lemma normalize_simplifies p : absolute p -> simplifies p (normalize_path p).
Proof. intros [r [-> Hr]]. exact (normalize_simplifies_gen r [] Hr). Qed.

Lemma fold_app_step a b st : fold_left normalize_step (a ++ b) st = fold_left normalize_step b (fold_left normalize_step a st).
Proof. apply fold_left_app. Qed.

Lemma simplify_same p q : absolute p -> simplify p q -> absolute q /\ normalize_path p = normalize_path q.
Proof.
  intros [r [Hp Hr]] Hs. destruct Hs; injection Hp as <-.
  - split.
    + eexists; split; [reflexivity|]. rewrite in_app_iff in *; cbn in *. tauto.
    + rewrite !normalize_root, !fold_app_step. reflexivity.
  - split.
    + eexists; split; [reflexivity|]. rewrite in_app_iff in *; cbn in *. tauto.
    + rewrite !normalize_root, !fold_app_step. cbn [fold_left].
      assert (Ha : ~ In RootDir a) by (rewrite in_app_iff in Hr; tauto).
      destruct (fold_rooted [] a Ha) as [l ->]. f_equal. f_equal.
      unfold normalize_step, pbuf_push, pbuf_pop, rooted; cbn. rewrite removelast_last. reflexivity.
  - split.
    + eexists; split; [reflexivity|]. cbn in *. tauto.
    + reflexivity.
Qed.

Lemma normalize_id p : clean p -> normalize_path p = p.
Proof.
  intros [names ->]. rewrite normalize_root.
  assert (G : forall n0, fold_left normalize_step (map Normal names) (rooted (map Normal n0))
               = rooted (map Normal (n0 ++ names))).
  { induction names as [|n names IH]; intros n0; cbn [map fold_left]; [rewrite app_nil_r; auto|].
    change (normalize_step (rooted (map Normal n0)) (Normal n)) with (rooted (map Normal n0 ++ [Normal n])).
    replace (map Normal n0 ++ [Normal n]) with (map Normal (n0 ++ [n])) by (rewrite map_app; auto).
    rewrite IH, <- app_assoc. reflexivity. }
  change (rooted []) with (rooted (map Normal [])). rewrite (G []). reflexivity.
Qed.

Lemma clean_absolute p : clean p -> absolute p.
Proof.
  intros [n ->]. eexists; split; [reflexivity|]. rewrite in_map_iff. intros [x [H _]]; discriminate.
Qed.

Lemma simplifies_unique p q : absolute p -> simplifies p q -> clean q -> q = normalize_path p.
Proof.
  intros Ha Hs. revert Ha. induction Hs as [p|p q r H1 H2 IH]; intros Ha Hc.
  - symmetry. apply normalize_id; auto.
  - destruct (simplify_same _ _ Ha H1) as [Hq ->]. apply IH; auto.
Qed.

Lemma normalize_idem p : absolute p -> normalize_path (normalize_path p) = normalize_path p.
Proof. intros H. apply normalize_id. apply normalize_clean; auto. Qed.

(** ** VirtualPath *)
Lemma virt_pop_None s : virt_pop s = None <-> no_slash s.
Proof.
  unfold no_slash. induction s as [|c s IH]; cbn [virt_pop In]; [tauto|].
  destruct (virt_pop s) as [r|] eqn:E.
  - split; [discriminate|]. intros H. exfalso.
    assert (~ In cSlash s) by tauto. apply IH in H0. discriminate.
  - destruct (N.eqb_spec c cSlash) as [->|Hne].
    + split; [discriminate|]. intros H; exfalso; apply H; auto.
    + split; auto. intros _ [H|H]; [auto|]. apply (proj1 IH); auto.
Qed.
Lemma virt_pop_app a b : no_slash b -> virt_pop (a ++ cSlash :: b) = Some a.
Proof.
  intros Hb. induction a as [|c a IH]; cbn [app virt_pop].
  - rewrite (proj2 (virt_pop_None b) Hb). reflexivity.
  - rewrite IH. reflexivity.
Qed.
Lemma virt_pop_Some s a : virt_pop s = Some a <-> exists b, no_slash b /\ s = a ++ cSlash :: b.
Proof.
  split.
  - revert a; induction s as [|c s IH]; intros a; cbn [virt_pop]; [discriminate|].
    destruct (virt_pop s) as [r|] eqn:E.
    + intros H; injection H as <-. destruct (IH r eq_refl) as [b [Hb ->]]. exists b. auto.
    + destruct (N.eqb_spec c cSlash) as [->|Hne]; [|discriminate].
      intros H; injection H as <-. exists s. split; [apply virt_pop_None; auto|reflexivity].
  - intros [b [Hb ->]]. apply virt_pop_app; auto.
Qed.

Lemma trim_dots j rest : ~ starts_dot rest -> trim_dot_slash (dots j rest) = rest.
Proof.
  intros H. induction j as [|j IH]; cbn [dots].
  - destruct rest as [|a [|b r]]; auto. cbn [trim_dot_slash].
    destruct ((a =? cDot) && (b =? cSlash)) eqn:E; auto. exfalso. apply H.
    apply andb_prop in E as [E1 E2]. exists r. apply N.eqb_eq in E1, E2. congruence.
  - cbn [trim_dot_slash]. rewrite !N.eqb_refl. exact IH.
Qed.

Lemma virt_join_base base rest :
  ~ starts_up rest -> virt_join base rest = Some (base ++ cSlash :: trim_dot_slash rest).
Proof.
  intros H. destruct rest as [|a [|b [|c r]]]; auto. cbn [virt_join].
  destruct ((a =? cDot) && (b =? cDot) && (c =? cSlash)) eqn:E; auto. exfalso. apply H.
  apply andb_prop in E as [E E3]. apply andb_prop in E as [E1 E2].
  apply N.eqb_eq in E1, E2, E3. exists r. congruence.
Qed.
Lemma virt_join_up base r :
  virt_join base (cDot :: cDot :: cSlash :: r) =
  match virt_pop base with Some b => virt_join b r | None => None end.
Proof. reflexivity. Qed.

(** Every relative path decomposes uniquely as ups k (dots j rest). *)
Lemma ups_decompose s : exists k rest, s = ups k rest /\ ~ starts_up rest.
Proof.
  remember (length s) as n eqn:Hn. revert s Hn.
  induction n as [n IH] using lt_wf_ind. intros s Hn.
  destruct s as [|a [|b [|c r]]]; try (exists O; eexists; split; [reflexivity|]; intros [r Hr]; discriminate).
  destruct ((a =? cDot) && (b =? cDot) && (c =? cSlash)) eqn:E.
  - apply andb_prop in E as [E E3]. apply andb_prop in E as [E1 E2]. apply N.eqb_eq in E1, E2, E3. subst.
    destruct (IH (length r)) with (s := r) as [k [rest [-> Hr]]]; [cbn; lia|auto|].
    exists (S k), rest. auto.
  - exists O; eexists; split; [reflexivity|]. intros [r' H]. injection H as -> -> -> ->.
    rewrite !N.eqb_refl in E. discriminate.
Qed.
Lemma dots_decompose s : exists j rest, s = dots j rest /\ ~ starts_dot rest.
Proof.
  remember (length s) as n eqn:Hn. revert s Hn.
  induction n as [n IH] using lt_wf_ind. intros s Hn.
  destruct s as [|a [|b r]]; try (exists O; eexists; split; [reflexivity|]; intros [r Hr]; discriminate).
  destruct ((a =? cDot) && (b =? cSlash)) eqn:E.
  - apply andb_prop in E as [E1 E2]. apply N.eqb_eq in E1, E2. subst.
    destruct (IH (length r)) with (s := r) as [k [rest [-> Hr]]]; [cbn; lia|auto|].
    exists (S k), rest. auto.
  - exists O; eexists; split; [reflexivity|]. intros [r' H]. injection H as -> -> ->.
    rewrite !N.eqb_refl in E. discriminate.
Qed.

Lemma unsplit_snoc l s : l <> [] -> unsplit (l ++ [s]) = unsplit l ++ cSlash :: s.
Proof.
  induction l as [|a l IH]; [contradiction|]. intros _. destruct l as [|b l]; [reflexivity|].
  change ((a :: b :: l) ++ [s]) with (a :: (b :: l) ++ [s]).
  change (unsplit (a :: (b :: l) ++ [s])) with (a ++ cSlash :: unsplit ((b :: l) ++ [s])).
  rewrite IH by discriminate. cbn [unsplit]. rewrite <- app_assoc. reflexivity.
Qed.
Lemma unsplit_no_slash s : unsplit [s] = s.
Proof. reflexivity. Qed.

(** The segments of a string. *)
Lemma split_slash_spec s : split_slash s <> [] /\ Forall no_slash (split_slash s) /\ unsplit (split_slash s) = s.
Proof.
  unfold no_slash. induction s as [|c s [H1 [H2 H3]]]; cbn [split_slash].
  - split; [discriminate|]. split; [repeat constructor; auto|reflexivity].
  - destruct (N.eqb_spec c cSlash) as [->|Hne].
    + split; [discriminate|]. split; [constructor; auto|]. 
      destruct (split_slash s) as [|a l]; [contradiction|].
      change (unsplit ([] :: a :: l)) with ([] ++ cSlash :: unsplit (a :: l)). rewrite H3. reflexivity.
    + destruct (split_slash s) as [|a l] eqn:E; [contradiction|].
      split; [discriminate|]. inversion H2; subst. split.
      * constructor; auto. intros [H|H]; auto.
      * destruct l; reflexivity.
Qed.

Lemma pop_unsplit l s : l <> [] -> no_slash s -> virt_pop (unsplit (l ++ [s])) = Some (unsplit l).
Proof. intros Hl Hs. rewrite unsplit_snoc by auto. apply virt_pop_app; auto. Qed.

(** join on segments: [k] ups remove the last [k] segments; fails if none
    would be left. *)
Lemma join_segments l k j rest :
  l <> [] -> Forall no_slash l -> ~ starts_up (dots j rest) -> ~ starts_dot rest ->
  virt_join (unsplit l) (ups k (dots j rest)) =
  if (k <? length l)%nat
  then Some (unsplit (firstn (length l - k) l) ++ cSlash :: rest)
  else None.
Proof.
  revert l; induction k as [|k IH]; intros l Hl Hf Hu Hd; cbn [ups].
  - rewrite virt_join_base by auto. rewrite trim_dots by auto.
    destruct l as [|a l]; [contradiction|]. cbn [length Nat.ltb Nat.leb].
    rewrite Nat.sub_0_r, firstn_all2 by (cbn; lia). reflexivity.
  - rewrite virt_join_up. destruct l as [|s l] using rev_ind; [contradiction|]. clear IHl.
    apply Forall_app in Hf as [Hf Hs]. inversion Hs as [|? ? Hs' _]; subst.
    destruct l as [|a l].
    + cbn [app]. rewrite (proj2 (virt_pop_None (unsplit [s])) Hs'). reflexivity.
    + rewrite pop_unsplit by (auto; discriminate).
      rewrite IH by (auto; discriminate). rewrite app_length. cbn [length].
      replace (S k <? S (length l) + 1)%nat with (k <? S (length l))%nat by lia.
      destruct (k <? S (length l))%nat eqn:E; auto. f_equal. f_equal. f_equal.
      replace (S (length l) + 1 - S k)%nat with (S (length l) - k)%nat by lia.
      rewrite (firstn_app (S (length l) - k)).
      replace (S (length l) - k - length (a :: l))%nat with O by (cbn [length]; lia).
      cbn [firstn]. rewrite app_nil_r. reflexivity.
Qed.

Lemma join_pop base s :
  no_slash s -> s <> [] -> virt_join base s = Some (base ++ cSlash :: s) /\
  virt_pop (base ++ cSlash :: s) = Some base.
Proof.
  intros Hs Hne. split; [|apply virt_pop_app; auto].
  rewrite virt_join_base.
  - replace (trim_dot_slash s) with s; auto. symmetry. apply (trim_dots 0).
    intros [r ->]. apply Hs. right; left; auto.
  - intros [r ->]. apply Hs. do 2 right; left; auto.
Qed.

Lemma virt_pop_shorter s a : virt_pop s = Some a -> (length a < length s)%nat.
Proof. intros H. apply virt_pop_Some in H as [b [_ ->]]. rewrite app_length. cbn. lia. Qed.

(** parent chains end *)
Definition vsize (p : vpath) : nat := match p with Real cs => length cs | Virtual s => length s end.
Lemma parent_smaller p q : vpath_parent p = Some q -> (vsize q < vsize p)%nat.
Proof.
  unfold vpath_parent, vpath_pop. destruct p as [cs|s].
  - destruct cs as [|c cs]; [discriminate|]. intros H.
    assert (Hq : q = Real (removelast (c :: cs))) by congruence. subst q. cbn [vsize].
    destruct (@exists_last _ (c :: cs)) as [l [x E]]; [discriminate|].
    rewrite E, removelast_last, app_length. cbn. lia.
  - destruct (virt_pop s) as [a|] eqn:E; [|discriminate]. intros H; injection H as <-.
    cbn [vsize]. apply virt_pop_shorter; auto.
Qed.

(** ** name_and_extension *)
Lemma rsplit_None sep s : rsplit_at sep s = None <-> ~ In sep s.
Proof.
  induction s as [|c s IH]; cbn [rsplit_at In]; [tauto|].
  destruct (rsplit_at sep s) as [[a b]|] eqn:E.
  - split; [discriminate|]. intros H. exfalso. assert (H0 : ~ In sep s) by tauto. apply IH in H0. discriminate.
  - destruct (N.eqb_spec c sep) as [->|Hne].
    + split; [discriminate|]. intros H; exfalso; apply H; auto.
    + split; auto. intros _ [H|H]; [auto|]. apply (proj1 IH); auto.
Qed.
Lemma rsplit_Some sep s a b : rsplit_at sep s = Some (a, b) <-> s = a ++ sep :: b /\ ~ In sep b.
Proof.
  split.
  - revert a; induction s as [|c s IH]; intros a; cbn [rsplit_at]; [discriminate|].
    destruct (rsplit_at sep s) as [[a' b']|] eqn:E.
    + intros H; injection H as <- <-. destruct (IH a' eq_refl) as [-> Hb]. auto.
    + destruct (N.eqb_spec c sep) as [->|Hne]; [|discriminate].
      intros H; injection H as <- <-. split; auto. apply rsplit_None; auto.
  - intros [-> Hb]. induction a as [|c a IH]; cbn [app rsplit_at].
    + rewrite (proj2 (rsplit_None sep b) Hb), N.eqb_refl. reflexivity.
    + rewrite IH. reflexivity.
Qed.

Lemma name_ext_dir dir name : no_slash name -> name <> [] ->
  virt_name_and_extension (dir ++ cSlash :: name) =
  match rsplit_at cDot name with
  | None => Some (name, None)
  | Some ([], _) => Some (name, None)
  | Some (stem, ext) => Some (stem, Some ext)
  end.
Proof.
  intros Hs Hne. unfold virt_name_and_extension.
  destruct (@exists_last _ name Hne) as [l [x ->]].
  replace (rev (dir ++ cSlash :: l ++ [x])) with (x :: rev (dir ++ cSlash :: l)).
  2:{ rewrite (app_comm_cons l [x] cSlash), app_assoc, (rev_app_distr _ [x]). reflexivity. }
  destruct (N.eqb_spec x cSlash) as [->|Hx].
  { exfalso. apply Hs. apply in_or_app; right; left; auto. }
  rewrite (proj2 (rsplit_Some cSlash _ dir (l ++ [x]))) by auto.
  destruct (l ++ [x]) eqn:E; [contradiction|]. reflexivity.
Qed.

(** ** Loader *)
Lemma texts_prefix_spec p s : texts_prefix p s = true <-> ancestor p s.
Proof.
  unfold ancestor. revert s; induction p as [|x p IH]; intros [|y s]; cbn; split; intros H; eauto; try discriminate.
  - destruct H as [r H]; discriminate.
  - apply andb_prop in H as [H1 H2]. apply text_eqb_eq in H1 as ->. apply IH in H2 as [r ->]. eauto.
  - destruct H as [r H]. injection H as -> ->. rewrite text_eqb_refl. apply IH. eauto.
Qed.
Lemma ancestor_cmp a b p : ancestor a p -> ancestor b p -> (length a <= length b)%nat -> ancestor a b.
Proof.
  intros [r1 ->] [r2 H] Hl. revert b H Hl.
  induction a as [|x a IH]; intros [|y b] H Hl; cbn in *; try lia; [exists []; auto|exists (y :: b); auto|].
  injection H as -> H. destruct (IH b H) as [r ->]; [lia|]. exists r; auto.
Qed.
Lemma ancestor_length a p : ancestor a p -> (length a <= length p)%nat.
Proof. intros [r ->]. rewrite app_length. lia. Qed.
Lemma ancestor_same a b p : ancestor a p -> ancestor b p -> length a = length b -> a = b.
Proof.
  intros Ha Hb Hl. destruct (ancestor_cmp a b p Ha Hb) as [r ->]; [lia|].
  rewrite app_length in Hl. destruct r; [rewrite app_nil_r; auto|cbn in Hl; lia].
Qed.

Definition best (path : list text) (o : option (list text)) (seen : list (list text)) : Prop :=
  match o with
  | None => forall i, In i seen -> ~ ancestor i path
  | Some b => In b seen /\ ancestor b path /\ forall i, In i seen -> ancestor i path -> (length i <= length b)%nat
  end.
Lemma include_best path l seen o :
  best path o seen -> best path (fold_left (include_step path) l o) (seen ++ l).
Proof.
  revert seen o; induction l as [|i l IH]; intros seen o H; cbn [fold_left].
  - rewrite app_nil_r; auto.
  - replace (seen ++ i :: l) with ((seen ++ [i]) ++ l) by (rewrite <- app_assoc; auto).
    apply IH. unfold include_step. unfold path_starts_with at 1.
    destruct (texts_prefix i path) eqn:E.
    + apply texts_prefix_spec in E. destruct o as [b|].
      * destruct H as [Hb [Hp Hm]]. unfold path_starts_with. destruct (texts_prefix i b) eqn:E2.
        -- apply texts_prefix_spec, ancestor_length in E2. split; [apply in_or_app; auto|]. split; auto.
           intros j Hj Hpj. apply in_app_or in Hj as [Hj|[<-|[]]]; auto.
        -- split; [apply in_or_app; right; left; auto|]. split; auto.
           assert (length b < length i)%nat.
           { destruct (Nat.lt_ge_cases (length b) (length i)); auto. exfalso.
             assert (ancestor i b) by (eapply ancestor_cmp; eauto).
             apply texts_prefix_spec in H0. congruence. }
           intros j Hj Hpj. apply in_app_or in Hj as [Hj|[<-|[]]]; auto.
           specialize (Hm j Hj Hpj). lia.
      * split; [apply in_or_app; right; left; auto|]. split; auto.
        intros j Hj Hpj. apply in_app_or in Hj as [Hj|[<-|[]]]; auto. exfalso. eapply H; eauto.
    + assert (Hn : ~ ancestor i path) by (intros H0; apply texts_prefix_spec in H0; congruence).
      destruct o as [b|].
      * destruct H as [Hb [Hp Hm]]. split; [apply in_or_app; auto|]. split; auto.
        intros j Hj Hpj. apply in_app_or in Hj as [Hj|[<-|[]]]; auto. contradiction.
      * intros j Hj. apply in_app_or in Hj as [Hj|[<-|[]]]; auto. 
Qed.

Lemma includes_path_spec d path :
  includes_path d path = true <->
  exists i, In i (d_include d) /\ ancestor i path /\
    forall e, In e (d_exclude d) -> ancestor e path -> (length e < length i)%nat.
Proof.
  unfold includes_path.
  pose proof (include_best path (d_include d) [] None) as H. cbn [app] in H.
  specialize (H (fun i Hi _ => Hi)).
  destruct (fold_left (include_step path) (d_include d) None) as [b|].
  - destruct H as [Hb [Hp Hm]]. rewrite negb_true_iff. split.
    + intros Hn. exists b. split; auto. split; auto. intros e He Hpe.
      destruct (Nat.lt_ge_cases (length e) (length b)); auto. exfalso.
      assert (existsb (fun excl => path_starts_with path excl && path_starts_with excl b) (d_exclude d) = true).
      { apply existsb_exists. exists e. split; auto. apply andb_true_intro; split; apply texts_prefix_spec; auto.
        eapply ancestor_cmp; eauto. }
      congruence.
    + intros [i [Hi [Hpi Hall]]]. apply not_true_is_false. intros Hex.
      apply existsb_exists in Hex as [e [He Hc]]. apply andb_prop in Hc as [H1 H2].
      apply texts_prefix_spec in H1, H2. apply ancestor_length in H2.
      specialize (Hall e He H1). specialize (Hm i Hi Hpi). lia.
  - split; [discriminate|]. intros [i [Hi [Hpi _]]]. exfalso. eapply H; eauto.
Qed.

Lemma contains_file_spec d path :
  dirs_contains_file d path = true <->
  In (match extension path with Some e => e | None => [] end) (d_extensions d) /\
  exists i, In i (d_include d) /\ ancestor i path /\
    forall e, In e (d_exclude d) -> ancestor e path -> (length e < length i)%nat.
Proof.
  unfold dirs_contains_file. rewrite <- includes_path_spec.
  set (ext := match extension path with Some e => e | None => [] end).
  destruct (forallb (fun it => negb (text_eqb it ext)) (d_extensions d)) eqn:E.
  - split; [discriminate|]. intros [H _]. exfalso.
    rewrite forallb_forall in E. specialize (E ext H). rewrite text_eqb_refl in E. discriminate.
  - split; [|tauto]. intros H. split; auto.
    assert (existsb (fun it => text_eqb it ext) (d_extensions d) = true).
    { clear -E. induction (d_extensions d) as [|x l IH]; cbn in *; [discriminate|].
      destruct (text_eqb x ext); cbn in *; auto. }
    apply existsb_exists in H0 as [x [Hx Hxe]]. apply text_eqb_eq in Hxe as ->. auto.
Qed.

(** Virtual paths are compared as raw strings: starts_with is a byte prefix. *)
