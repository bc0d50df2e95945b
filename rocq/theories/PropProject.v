(** Property C38: project discovery. *)
From Coq Require Import String Sorted Permutation.
From Verif Require Import Base BaseProofs Project.
Local Open Scope N_scope.

(** ** Specification *)
(** [d] is [p] or a directory above it *)
Definition above (d p : abs_path) : Prop := exists r, p = d ++ r.
(** [d] holds a manifest file *)
Definition has_manifest (fs : filesystem) (d : abs_path) : Prop := exists_ fs (d ++ [Name (`"Dove.toml")]) = true.
Definition nearest (fs : filesystem) (d p : abs_path) : Prop :=
  above d p /\ has_manifest fs d /\ forall d', above d' p -> has_manifest fs d' -> (length d' <= length d)%nat.
Definition names_manifest (p : abs_path) : Prop := exists d, p = d ++ [Name (`"Dove.toml")].
Definition before (a b : manifest) : Prop := path_cmp (manifest_file a) (manifest_file b) = Lt.

(** ** Proofs *)
Lemma named_spec p : is_named p DOVE_TOML = true <-> names_manifest p.
Proof.
  unfold is_named, names_manifest, file_name. split.
  - intros H. destruct p as [|x p] using rev_ind; [cbn in H; discriminate|]. exists p. clear IHp.
    rewrite last_last in H. destruct x as [|s]; [discriminate|]. apply text_eqb_eq in H. rewrite H. reflexivity.
  - intros [d ->]. rewrite last_last. apply text_eqb_eq. reflexivity.
Qed.
Lemma parent_app p x : parent (p ++ [x]) = Some p.
Proof. unfold parent. destruct (p ++ [x]) eqn:E; [destruct p; discriminate|]. rewrite <- E, removelast_last. reflexivity. Qed.
Lemma try_from_join p s : manifest_try_from (join p s) = Some (Manifest (join p s)).
Proof. unfold manifest_try_from, join. rewrite parent_app. reflexivity. Qed.

Lemma parent_loop_spec fs : forall n p, (length p <= n)%nat ->
  match parent_loop fs DOVE_TOML (S n) (Some p) with
  | Ok (Some m) => exists d, nearest fs d p /\ m = Manifest (d ++ [Name DOVE_TOML])
  | Ok None => forall d, above d p -> ~ has_manifest fs d
  | _ => False
  end.
Proof.
  induction n as [|n IH]; intros p Hn.
  - destruct p; [|cbn in Hn; lia]. cbn [parent_loop]. rewrite try_from_join.
    destruct (exists_ fs (join [] DOVE_TOML)) eqn:E.
    + exists []. split; [|reflexivity]. split; [exists []; reflexivity|]. split; [exact E|].
      intros d' [r Hr] _. symmetry in Hr. apply app_eq_nil in Hr as [-> _]. lia.
    + cbn. intros d [r Hr]. symmetry in Hr. apply app_eq_nil in Hr as [-> _]. unfold has_manifest. unfold join in E. cbn [app] in *.
      change (`"Dove.toml") with DOVE_TOML. congruence.
  - cbn [parent_loop]. rewrite try_from_join. destruct (exists_ fs (join p DOVE_TOML)) eqn:E.
    + exists p. split; [|reflexivity]. split; [exists []; rewrite app_nil_r; reflexivity|]. split; [exact E|].
      intros d' [r Hr] _. rewrite Hr, app_length. lia.
    + destruct p as [|x p] using rev_ind; [|clear IHp].
      * cbn. intros d [r Hr]. symmetry in Hr. apply app_eq_nil in Hr as [-> _]. unfold has_manifest. unfold join in E. cbn [app] in *.
        change (`"Dove.toml") with DOVE_TOML. congruence.
      * rewrite parent_app. rewrite app_length in Hn. cbn in Hn. specialize (IH p ltac:(lia)).
        assert (Split : forall d, above d (p ++ [x]) -> has_manifest fs d -> above d p).
        { intros d [r Hr] Hm. destruct r as [|y r] using rev_ind; [|clear IHr].
          - rewrite app_nil_r in Hr. subst d. unfold has_manifest in Hm. unfold join in E. change (`"Dove.toml") with DOVE_TOML in Hm. congruence.
          - rewrite app_assoc in Hr. apply app_inj_tail in Hr as [-> _]. exists r. reflexivity. }
        assert (Up' : forall d, above d p -> above d (p ++ [x])).
        { intros d [r ->]. exists (r ++ [x]). rewrite app_assoc. reflexivity. }
        change (match parent_loop fs DOVE_TOML (S n) (Some p) with
                | Ok (Some m) => exists d, nearest fs d (p ++ [x]) /\ m = Manifest (d ++ [Name DOVE_TOML])
                | Ok None => forall d, above d (p ++ [x]) -> ~ has_manifest fs d
                | _ => False end).
        destruct (parent_loop fs DOVE_TOML (S n) (Some p)) as [[m|]|w|]; auto.
        -- destruct IH as (d & (A & M & Mx) & ->). exists d. split; [|reflexivity]. split; [auto|]. split; [exact M|].
           intros d' A' M'. apply Mx; auto.
        -- intros d A M. apply (IH d); auto.
Qed.

Lemma find_spec fs p : is_named p DOVE_TOML = false ->
  match find_in_parent_dirs fs p DOVE_TOML with
  | Ok (Some m) => exists d, nearest fs d p /\ m = Manifest (d ++ [Name DOVE_TOML])
  | Ok None => forall d, above d p -> ~ has_manifest fs d
  | _ => False
  end.
Proof. intros E. unfold find_in_parent_dirs. rewrite E. exact (parent_loop_spec fs (length p) p (le_n _)). Qed.

(** The three cases of discovery. *)
Theorem C38_manifest_itself : forall fs p, names_manifest p -> discover fs p = Ok (Some [Manifest p]).
Proof.
  intros fs p H. unfold discover, find_in_parent_dirs. rewrite (proj2 (named_spec p) H).
  destruct H as [d ->]. unfold manifest_try_from. rewrite parent_app. reflexivity.
Qed.
Theorem C38_nearest_ancestor : forall fs p d,
  ~ names_manifest p -> nearest fs d p -> discover fs p = Ok (Some [Manifest (d ++ [Name (`"Dove.toml")])]).
Proof.
  intros fs p d Hp (A & M & Mx). unfold discover.
  destruct (is_named p DOVE_TOML) eqn:E; [apply named_spec in E; tauto|].
  pose proof (find_spec fs p E) as L.
  destruct (find_in_parent_dirs fs p DOVE_TOML) as [[m|]|w|]; try contradiction.
  - destruct L as (d' & N' & ->). destruct N' as (A' & M' & Mx'). cbn [bind].
    assert (d' = d).
    { pose proof (Mx _ A' M'). pose proof (Mx' _ A M). destruct A as [r ->], A' as [r' E'].
      apply app_eq_app in E' as [z [[E1 E2]|[E1 E2]]]; rewrite E1, app_length in *; destruct z; cbn in *; try lia; rewrite app_nil_r in *; auto. }
    subst d'. reflexivity.
  - exfalso. exact (L d A M).
Qed.
(** No manifest above: those of the child directories (or the error of reading the directory). *)
Theorem C38_children_otherwise : forall fs p,
  ~ names_manifest p -> (forall d, above d p -> ~ has_manifest fs d) ->
  match read_dir fs p with
  | None => discover fs p = Ok None
  | Some entries => exists ms, discover fs p = Ok (Some ms) /\
      forall m, In m ms <-> exists child, In (Some child) entries /\ has_manifest fs child /\ m = Manifest (child ++ [Name (`"Dove.toml")])
  end.
Proof.
  intros fs p Hp Hn. unfold discover.
  destruct (is_named p DOVE_TOML) eqn:E; [apply named_spec in E; tauto|].
  pose proof (find_spec fs p E) as L.
  destruct (find_in_parent_dirs fs p DOVE_TOML) as [[m|]|w|]; try contradiction.
  - destruct L as (d & (A & M & _) & _). exfalso. exact (Hn d A M).
  - cbn [bind]. destruct (read_dir fs p) as [es|]; [|reflexivity].
    eexists. split; [reflexivity|]. intros m. unfold find_in_child_dirs. rewrite in_flat_map. split.
    + intros ([c|] & Hin & Hm); [|destruct Hm]. cbv beta iota zeta in Hm. rewrite try_from_join in Hm.
      destruct (exists_ fs (join c DOVE_TOML)) eqn:X; [|destruct Hm]. destruct Hm as [<-|[]].
      exists c. split; [exact Hin|]. split; [exact X|reflexivity].
    + intros (c & Hin & Hm & ->). exists (Some c). split; [exact Hin|]. rewrite try_from_join.
      unfold has_manifest in Hm. unfold join. change (`"Dove.toml") with DOVE_TOML in *. rewrite Hm. left. reflexivity.
Qed.
(** Discovery always ends. *)
Theorem C38_discovery_ends : forall fs p, exists r, discover fs p = Ok r.
Proof.
  intros fs p. unfold discover.
  destruct (is_named p DOVE_TOML) eqn:E.
  - unfold find_in_parent_dirs. rewrite E. apply named_spec in E as [d ->]. unfold manifest_try_from. rewrite parent_app. cbn. eauto.
  - pose proof (find_spec fs p E) as L.
    destruct (find_in_parent_dirs fs p DOVE_TOML) as [[m|]|w|]; try contradiction; cbn [bind]; eauto.
    destruct (read_dir fs p); eauto.
Qed.
(** Every manifest found is called Dove.toml and has a parent directory. *)
Theorem C38_manifests_have_parents : forall fs p ms m,
  discover fs p = Ok (Some ms) -> In m ms ->
  exists d, manifest_file m = d ++ [Name (`"Dove.toml")] /\ manifest_parent m = Ok d.
Proof.
  intros fs p ms m H Hin.
  assert (X : forall d, exists d', manifest_file (Manifest (d ++ [Name (`"Dove.toml")])) = d' ++ [Name (`"Dove.toml")] /\
    manifest_parent (Manifest (d ++ [Name (`"Dove.toml")])) = Ok d').
  { intros d. exists d. split; [reflexivity|]. unfold manifest_parent. cbn [manifest_file]. rewrite parent_app. reflexivity. }
  unfold discover in H.
  destruct (is_named p DOVE_TOML) eqn:E.
  - unfold find_in_parent_dirs in H. rewrite E in H. apply named_spec in E as [d ->]. unfold manifest_try_from in H. rewrite parent_app in H. cbn in H.
    injection H as <-. destruct Hin as [<-|[]]. apply X.
  - pose proof (find_spec fs p E) as L.
    destruct (find_in_parent_dirs fs p DOVE_TOML) as [[m'|]|w|]; try contradiction; cbn [bind] in H.
    + injection H as <-. destruct Hin as [<-|[]]. destruct L as (d & _ & ->). apply X.
    + destruct (read_dir fs p) as [es|]; [|discriminate]. injection H as <-.
      apply in_flat_map in Hin as ([c|] & Hin & Hm); [|destruct Hm]. cbv beta iota zeta in Hm. rewrite try_from_join in Hm.
      destruct (exists_ fs (join c DOVE_TOML)); [|destruct Hm]. destruct Hm as [<-|[]]. apply X.
Qed.
Theorem C38_from_manifest_file : forall p,
  (names_manifest p -> from_manifest_file p = Some (Manifest p)) /\ (~ names_manifest p -> from_manifest_file p = None).
Proof.
  intros p. unfold from_manifest_file. split.
  - intros H. rewrite (proj2 (named_spec p) H). destruct H as [d ->]. unfold manifest_try_from. rewrite parent_app. reflexivity.
  - intros H. destruct (manifest_try_from p); [|reflexivity]. destruct (is_named p DOVE_TOML) eqn:E; [apply named_spec in E; tauto|reflexivity].
Qed.
(** A single project is returned exactly when there is exactly one candidate. *)
Theorem C38_discover_single : forall fs p m,
  discover_single fs p = Ok (Some m) <-> discover fs p = Ok (Some [m]).
Proof.
  intros fs p m. unfold discover_single. destruct (C38_discovery_ends fs p) as [r ->]. cbn [bind].
  destruct r as [ms|]; [|split; discriminate]. split.
  - destruct (rev ms) as [|x [|]] eqn:E; try discriminate. intros H. injection H as ->.
    apply (f_equal (@rev manifest)) in E. rewrite rev_involutive in E. cbn in E. rewrite E. reflexivity.
  - intros H. injection H as ->. reflexivity.
Qed.

(** ** [discover_all] *)
Lemma text_cmp_refl a : text_cmp a a = Eq.
Proof. induction a as [|x a IH]; [reflexivity|]. cbn. rewrite N.compare_refl. exact IH. Qed.
Lemma text_cmp_eq a : forall b, text_cmp a b = Eq -> a = b.
Proof.
  induction a as [|x a IH]; intros [|y b]; cbn; try discriminate; [reflexivity|].
  destruct (x ?= y) eqn:E; try discriminate. apply N.compare_eq in E. subst. intros H. rewrite (IH _ H). reflexivity.
Qed.
Lemma text_cmp_anti a : forall b, text_cmp b a = CompOpp (text_cmp a b).
Proof.
  induction a as [|x a IH]; intros [|y b]; cbn; try reflexivity. rewrite (N.compare_antisym x y).
  destruct (x ?= y); cbn; auto.
Qed.
Lemma text_cmp_trans a : forall b c, text_cmp a b = Lt -> text_cmp b c = Lt -> text_cmp a c = Lt.
Proof.
  induction a as [|x a IH]; intros [|y b] [|z c]; cbn; try discriminate; auto.
  destruct (x ?= y) eqn:E1; try discriminate; destruct (y ?= z) eqn:E2; try discriminate;
    rewrite ?N.compare_eq_iff, ?N.compare_lt_iff in *; subst.
  - rewrite N.compare_refl. apply IH.
  - intros _ _. replace (y ?= z) with Lt by (symmetry; apply N.compare_lt_iff; lia). reflexivity.
  - intros _ _. replace (x ?= z) with Lt by (symmetry; apply N.compare_lt_iff; lia). reflexivity.
  - intros _ _. replace (x ?= z) with Lt by (symmetry; apply N.compare_lt_iff; lia). reflexivity.
Qed.
Lemma pcomp_cmp_eq a b : pcomp_cmp a b = Eq <-> a = b.
Proof.
  destruct a, b; cbn; split; try discriminate; try reflexivity.
  - intros H. rewrite (text_cmp_eq _ _ H). reflexivity.
  - intros H. injection H as ->. apply text_cmp_refl.
Qed.
Lemma pcomp_cmp_anti a b : pcomp_cmp b a = CompOpp (pcomp_cmp a b).
Proof. destruct a, b; cbn; try reflexivity. apply text_cmp_anti. Qed.
Lemma pcomp_cmp_trans a b c : pcomp_cmp a b = Lt -> pcomp_cmp b c = Lt -> pcomp_cmp a c = Lt.
Proof. destruct a, b, c; cbn; try discriminate; auto. apply text_cmp_trans. Qed.
Lemma path_cmp_eq a : forall b, path_cmp a b = Eq <-> a = b.
Proof.
  induction a as [|x a IH]; intros [|y b]; cbn; split; try discriminate; try reflexivity.
  - destruct (pcomp_cmp x y) eqn:E; try discriminate. apply pcomp_cmp_eq in E. subst. intros H. apply IH in H. congruence.
  - intros H. injection H as -> ->. rewrite (proj2 (pcomp_cmp_eq y y) eq_refl). apply IH. reflexivity.
Qed.
Lemma path_cmp_anti a : forall b, path_cmp b a = CompOpp (path_cmp a b).
Proof.
  induction a as [|x a IH]; intros [|y b]; cbn; try reflexivity. rewrite (pcomp_cmp_anti x y). destruct (pcomp_cmp x y); cbn; auto.
Qed.
Lemma path_cmp_trans a : forall b c, path_cmp a b = Lt -> path_cmp b c = Lt -> path_cmp a c = Lt.
Proof.
  induction a as [|x a IH]; intros [|y b] [|z c]; cbn; try discriminate; auto.
  destruct (pcomp_cmp x y) eqn:E1; try discriminate; destruct (pcomp_cmp y z) eqn:E2; try discriminate.
  - apply pcomp_cmp_eq in E1, E2. subst. rewrite (proj2 (pcomp_cmp_eq z z) eq_refl). apply IH.
  - apply pcomp_cmp_eq in E1. subst. rewrite E2. auto.
  - apply pcomp_cmp_eq in E2. subst. rewrite E1. auto.
  - rewrite (pcomp_cmp_trans _ _ _ E1 E2). auto.
Qed.
Lemma manifest_eqb_eq a b : manifest_eqb a b = true <-> a = b.
Proof.
  destruct a as [a], b as [b]. unfold manifest_eqb. cbn [manifest_file]. split.
  - revert b. induction a as [|x a IH]; intros [|y b]; cbn; try discriminate; [reflexivity|].
    intros H. apply andb_true_iff in H as [H1 H2]. apply IH in H2. injection H2 as ->.
    destruct x, y; cbn in H1; try discriminate; [reflexivity|]. apply text_eqb_eq in H1. subst. reflexivity.
  - intros H. injection H as ->. induction b as [|x b IH]; [reflexivity|]. cbn. rewrite IH, andb_true_r.
    destruct x; [reflexivity|]. apply text_eqb_eq. reflexivity.
Qed.
Lemma dedup_spec l : NoDup (dedup l) /\ forall m, In m (dedup l) <-> In m l.
Proof.
  induction l as [|x l [IH1 IH2]]; cbn [dedup]; [split; [constructor|reflexivity]|].
  destruct (existsb (manifest_eqb x) (dedup l)) eqn:E.
  - split; [exact IH1|]. intros m. rewrite IH2. split; [right; assumption|]. intros [<-|H]; [|exact H].
    apply existsb_exists in E as (y & Hy & E). apply manifest_eqb_eq in E. subst. apply IH2. exact Hy.
  - split.
    + constructor; [|exact IH1]. intros H. assert (X : existsb (manifest_eqb x) (dedup l) = true).
      { apply existsb_exists. exists x. split; [exact H|]. apply manifest_eqb_eq. reflexivity. }
      congruence.
    + intros m. cbn. rewrite IH2. reflexivity.
Qed.
Lemma insert_perm m l : Permutation (insert_sorted m l) (m :: l).
Proof.
  induction l as [|x l IH]; cbn; [reflexivity|]. destruct (path_cmp _ _); try reflexivity.
  rewrite IH. apply perm_swap.
Qed.
Lemma sort_perm l : Permutation (sort l) l.
Proof. induction l as [|m l IH]; cbn [sort]; [reflexivity|]. rewrite insert_perm, IH. reflexivity. Qed.
Lemma insert_sorted_ok m l : ~ In m l -> StronglySorted before l -> StronglySorted before (insert_sorted m l).
Proof.
  intros Hn S. induction S as [|x l S IH F]; cbn [insert_sorted]; [repeat constructor|].
  assert (Lx : path_cmp (manifest_file m) (manifest_file x) = Eq -> False).
  { intros E. apply path_cmp_eq in E. apply Hn. left. destruct m, x. cbn in E. congruence. }
  destruct (path_cmp (manifest_file m) (manifest_file x)) eqn:E.
  - exfalso. auto.
  - constructor; [constructor; auto|]. constructor; [exact E|].
    eapply Forall_impl; [|exact F]. intros y Hy. unfold before in *. eapply path_cmp_trans; eauto.
  - constructor; [apply IH; intros H; apply Hn; right; exact H|].
    apply Forall_forall. intros y Hy. apply (Permutation_in _ (insert_perm m l)) in Hy as [<-|Hy].
    + unfold before. rewrite path_cmp_anti, E. reflexivity.
    + rewrite Forall_forall in F. auto.
Qed.
Lemma sort_ok l : NoDup l -> StronglySorted before (sort l).
Proof.
  induction 1 as [|m l Hn _ IH]; cbn [sort]; [constructor|]. apply insert_sorted_ok; [|exact IH].
  intros H. apply Hn. eapply Permutation_in; [apply sort_perm|exact H].
Qed.

(** All projects under the given paths, each once, in path order; the order
    in which the hash set is enumerated does not matter. *)
Theorem C38_discover_all : forall order fs paths,
  (forall l, Permutation (order l) l) ->
  exists ms, discover_all order fs paths = Ok ms /\
    StronglySorted before ms /\ NoDup ms /\
    forall m, In m ms <-> exists p found, In p paths /\ discover fs p = Ok (Some found) /\ In m found.
Proof.
  intros order fs paths Ho.
  assert (X : exists ms, discover_each fs paths = Ok ms /\
    forall m, In m ms <-> exists p found, In p paths /\ discover fs p = Ok (Some found) /\ In m found).
  { induction paths as [|p paths (ms & E & IH)]; cbn [discover_each].
    - exists []. split; [reflexivity|]. intros m. split; [intros []|intros (p & f & [] & _)].
    - destruct (C38_discovery_ends fs p) as [r R]. rewrite R, E. cbn [bind]. eexists. split; [reflexivity|].
      intros m. split.
      + intros H. destruct r as [f|].
        * apply in_app_iff in H as [H|H]; [exists p, f; split; [left; reflexivity|auto]|].
          apply IH in H as (q & f' & H1 & H2 & H3). exists q, f'. split; [right; exact H1|auto].
        * apply IH in H as (q & f' & H1 & H2 & H3). exists q, f'. split; [right; exact H1|auto].
      + intros (q & f & [<-|Hq] & H2 & H3).
        * rewrite R in H2. injection H2 as ->. apply in_app_iff. auto.
        * assert (Y : In m ms) by (apply IH; eauto). destruct r; [apply in_app_iff; auto|exact Y]. }
  destruct X as (ms & E & H). exists (sort (order (dedup ms))). unfold discover_all. rewrite E. cbn [bind].
  destruct (dedup_spec ms) as [D1 D2].
  assert (Nd : NoDup (order (dedup ms))) by (eapply Permutation_NoDup; [symmetry; apply Ho|exact D1]).
  split; [reflexivity|]. split; [apply sort_ok; exact Nd|]. split.
  - eapply Permutation_NoDup; [symmetry; apply sort_perm|exact Nd].
  - intros m. rewrite <- H, <- D2. split; intros X.
    + eapply Permutation_in; [apply Ho|]. eapply Permutation_in; [apply sort_perm|exact X].
    + eapply Permutation_in; [symmetry; apply sort_perm|]. eapply Permutation_in; [symmetry; apply Ho|exact X].
Qed.

(** ** A file system with two projects, one above the other's directory *)
Definition n (s : string) : pcomp := Name (`s).
Definition sample_fs : filesystem := {|
  exists_ p := path_eqb p [n "w"; n "a"; n "Dove.toml"] || path_eqb p [n "w"; n "b"; n "Dove.toml"];
  read_dir p := if path_eqb p [n "w"] then Some [Some [n "w"; n "b"]; None; Some [n "w"; n "a"]; Some [n "w"; n "x"]] else None |}.
Example sample_nearest : nearest sample_fs [n "w"; n "a"] [n "w"; n "a"; n "src"; n "m.move"].
Proof.
  split; [exists [n "src"; n "m.move"]; reflexivity|]. split; [vm_compute; reflexivity|].
  intros d' [r Hr] Hm. destruct d' as [|a [|b [|c [|d [|e d']]]]]; cbn; try lia; cbn in Hr; injection Hr; intros; subst; try discriminate; vm_compute in Hm; discriminate.
Qed.
Example sample_children : discover sample_fs [n "w"] = Ok (Some [Manifest [n "w"; n "b"; n "Dove.toml"]; Manifest [n "w"; n "a"; n "Dove.toml"]]).
Proof. vm_compute. reflexivity. Qed.
Example sample_all : discover_all (@rev manifest) sample_fs [[n "w"]; [n "w"; n "a"; n "src"]; [n "q"]] =
  Ok [Manifest [n "w"; n "a"; n "Dove.toml"]; Manifest [n "w"; n "b"; n "Dove.toml"]].
Proof. vm_compute. reflexivity. Qed.

Print Assumptions C38_manifest_itself.
Print Assumptions C38_nearest_ancestor.
Print Assumptions C38_children_otherwise.
Print Assumptions C38_discovery_ends.
Print Assumptions C38_manifests_have_parents.
Print Assumptions C38_from_manifest_file.
Print Assumptions C38_discover_single.
Print Assumptions C38_discover_all.
