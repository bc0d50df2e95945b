(** Properties C65 and C66: file-system paths on the level of bytes.  See
    AbsPathSpec.v for what a path leads to ([leads]), the shortest spelling of a
    file ([spelling]) and the parts of a path that count ([words]). *)
From Coq Require Import String.
From Verif Require Import Base BaseProofs Utf8 Vfs VfsPath PathSpec PathProofs AbsPath AbsPathSpec AbsPathProofs Utf8Proofs.
Local Open Scope N_scope.

(** ** C65.  The virtual file system knows a file by one spelling. *)

(** A path given to it is stored as the shortest spelling of the file it leads
    to. *)
Theorem C65_stored_spelling : forall p, rooted p ->
  exists ns, leads [] p ns /\ Forall name ns /\ vfs_from p = spelling ns /\ forall ms, leads [] p ms -> ms = ns.
Proof.
  intros p R. exists (walkf [] (split_slash p)). pose proof (proj1 (rooted_iff p) R) as A.
  split; [apply leads_iff; rewrite A; reflexivity|]. split; [apply walkf_names; [apply split_slash_spec|constructor]|].
  split; [apply normalize_rooted; exact R|]. intros ms L. apply leads_iff in L. rewrite A in L. exact L.
Qed.
(** Joining never panics and resolves the argument in the directory. *)
Theorem C65_join : forall ns q, Forall name ns ->
  exists ms, leads ns q ms /\ Forall name ms /\ vfs_join (spelling ns) q = Ok (spelling ms) /\
             forall ks, leads ns q ks -> ks = ms.
Proof.
  intros ns q F. exists (walkf (if is_absolute q then [] else ns) (split_slash q)).
  split; [apply leads_iff; reflexivity|]. split; [apply walkf_names; [apply split_slash_spec|destruct (is_absolute q); [constructor|exact F]]|].
  split; [apply vfs_join_spelling; exact F|]. intros ks L. apply leads_iff in L. exact L.
Qed.
(** Popping takes the last name away; the root stays. *)
Theorem C65_pop : forall ns n, Forall name ns -> name n ->
  vfs_pop (spelling (ns ++ [n])) = (spelling ns, true) /\ vfs_parent (spelling (ns ++ [n])) = Some (spelling ns) /\
  vfs_pop (spelling []) = (spelling [], false) /\ vfs_parent (spelling []) = None.
Proof.
  intros ns n F Hn. unfold vfs_parent, vfs_pop, abs_pop, path_pop. rewrite parent_spelling by assumption. repeat split.
Qed.
(** Whatever has been built from given paths in these ways ... *)
Inductive vfs_value : bytes -> Prop :=
| v_from p : rooted p -> vfs_value (vfs_from p)
| v_join p q r : vfs_value p -> vfs_join p q = Ok r -> vfs_value r
| v_pop p : vfs_value p -> vfs_value (fst (vfs_pop p)).
Lemma value_spelling p : vfs_value p -> exists ns, Forall name ns /\ p = spelling ns.
Proof.
  intros V. induction V as [p R|p q r _ (ns & F & ->) J|p _ (ns & F & ->)].
  - destruct (C65_stored_spelling p R) as (ns & _ & F & E & _). eauto.
  - destruct (C65_join ns q F) as (ms & _ & F' & E & _). rewrite E in J. injection J as <-. eauto.
  - unfold vfs_pop, abs_pop. rewrite pop_spelling by exact F. exists (removelast ns). split; [apply Forall_removelast; exact F|reflexivity].
Qed.
(** ... is a shortest spelling, so that the two ways to compare paths (by
    components in tables, by bytes when files are assigned to source roots)
    agree, and mean the same file. *)
Theorem C65_one_spelling : forall p, vfs_value p -> exists ns, Forall name ns /\ p = spelling ns /\ leads [] p ns.
Proof.
  intros p V. destruct (value_spelling p V) as (ns & F & ->). exists ns. repeat split; auto. apply leads_iff.
  rewrite (proj1 (rooted_iff _) (spelling_rooted ns)), <- walkf_filter. fold (ws (spelling ns)). rewrite ws_spelling by exact F.
  rewrite (walkf_name_list [] ns F). reflexivity.
Qed.
Theorem C65_comparisons_agree : forall p q, vfs_value p -> vfs_value q ->
  (path_eqb p q = true <-> p = q) /\ (vfs_encode p = vfs_encode q <-> p = q) /\
  (p = q <-> exists ns, leads [] p ns /\ leads [] q ns) /\
  (abs_starts_with p q = true <-> exists ns more, leads [] q ns /\ leads [] p (ns ++ more)).
Proof.
  intros p q V W. destruct (C65_one_spelling p V) as (ns & F & E & L), (C65_one_spelling q W) as (ms & G & E' & M).
  assert (Fun : forall p a b, leads [] p a -> leads [] p b -> a = b).
  { intros x a b X Y. apply leads_iff in X, Y. congruence. }
  assert (Rp : rooted p) by (rewrite E; apply spelling_rooted). assert (Rq : rooted q) by (rewrite E'; apply spelling_rooted).
  assert (Wp : ws p = ns) by (rewrite E; apply ws_spelling; exact F). assert (Wq : ws q = ms) by (rewrite E'; apply ws_spelling; exact G).
  split; [|split; [|split]].
  - rewrite (path_eqb_ws p q Rp Rq), Wp, Wq. split; [intros ->; congruence|]. intros H. rewrite H in Wp. congruence.
  - unfold vfs_encode. split; [intros H; injection H as H; exact H|intros ->; reflexivity].
  - split; [intros ->; eauto|]. intros (ks & K1 & K2). rewrite E, E', (Fun _ _ _ L K1), (Fun _ _ _ M K2). reflexivity.
  - unfold abs_starts_with. rewrite (starts_with_ws p q Rp Rq), Wp, Wq. split.
    + intros (more & ->). exists ms, more. auto.
    + intros (ks & more & K1 & K2). exists more. rewrite (Fun _ _ _ L K2), (Fun _ _ _ M K1). reflexivity.
Qed.
(** In the other files the model keeps the names instead of the bytes.  That is
    the same. *)
Theorem C65_names_stand_for_paths : forall ns, Forall name ns ->
  (forall p, vfs_from p = spelling ns -> rooted p -> normalize_path (components p) = RootDir :: map Normal ns) /\
  (forall q ms, Forall name ms -> (vfs_join (spelling ns) q = Ok (spelling ms) <-> vpath_join (Real ns) q = Some (Real ms))) /\
  (forall ms b, Forall name ms -> (vfs_pop (spelling ns) = (spelling ms, b) <-> vpath_pop (Real ns) = (Real ms, b))) /\
  (forall ms, Forall name ms -> abs_starts_with (spelling ns) (spelling ms) = vpath_starts_with (Real ns) (Real ms)) /\
  spelling ns = real_str ns.
Proof.
  intros ns F.
  assert (Nf : forall l ks, Forall (fun s => live s = true) l ->
    fold_left normalize_step (map comp_parse l) {| pb_root := true; pb_comps := map Normal ks |} =
    {| pb_root := true; pb_comps := map Normal (walkf ks l) |}).
  { clear. induction l as [|s l IH]; intros ks L; [reflexivity|]. inversion L as [|? ? Ls L']; subst. cbn [map fold_left walkf].
    unfold live in Ls. destruct (idle s); [discriminate Ls|]. destruct (list_eq_dec N.eq_dec s (`"..")) as [->|Ne].
    - change (comp_parse (`"..")) with ParentDir. cbn [normalize_step]. unfold pbuf_pop. cbn [pb_root pb_comps].
      replace (removelast (map Normal ks)) with (map Normal (removelast ks)); [apply IH; exact L'|].
      clear. induction ks as [|x [|y ks] IH]; [reflexivity|reflexivity|]. cbn [removelast map] in *. rewrite IH. reflexivity.
    - rewrite (comp_parse_name s Ne). cbn [normalize_step]. unfold pbuf_push. cbn [pb_root pb_comps].
      change [Normal s] with (map Normal [s]). rewrite <- map_app. apply IH. exact L'. }
  assert (Lv : forall p, Forall (fun s => live s = true) (ws p)).
  { intros p. eapply Forall_impl; [|apply ws_live]. intros s [H _]. exact H. }
  split; [|split; [|split; [|split]]].
  - intros p V R. rewrite (normalize_rooted p R : vfs_from p = _) in V.
    apply spelling_inj in V; [|apply walkf_names; [apply split_slash_spec|constructor]|exact F].
    unfold normalize_path, components. destruct R as (r & ->). rewrite N.eqb_refl. cbn [app fold_left normalize_step pbuf_push].
    rewrite comps_filter. fold (ws (cSlash :: r)).
    change {| pb_root := true; pb_comps := [] |} with {| pb_root := true; pb_comps := map Normal [] |}. rewrite (Nf (ws (cSlash :: r)) [] (Lv _)).
    unfold pbuf_components. cbn [pb_root pb_comps app]. unfold ws. rewrite walkf_filter, V. reflexivity.
  - intros q ms G. rewrite vfs_join_spelling by exact F. unfold vpath_join.
    assert (E : flat_map comp_text (normalize_path (RootDir :: map comp_parse ns ++ components q))
      = walkf (if is_absolute q then [] else ns) (split_slash q)).
    { unfold normalize_path. cbn [fold_left normalize_step pbuf_push]. rewrite fold_left_app.
      assert (Ln : Forall (fun s => live s = true) ns) by (eapply Forall_impl; [|exact F]; intros s; apply name_live).
      change {| pb_root := true; pb_comps := [] |} with {| pb_root := true; pb_comps := map Normal [] |}.
      rewrite (Nf ns [] Ln), (walkf_name_list [] ns F). cbn [app]. unfold components.
      replace (match q with c :: _ => if c =? cSlash then [RootDir] else [] | [] => [] end) with (if is_absolute q then [RootDir] else [])
        by (destruct q as [|c q]; reflexivity).
      rewrite comps_filter. fold (ws q).
      assert (Out : forall ks, flat_map comp_text (pbuf_components {| pb_root := true; pb_comps := map Normal ks |}) = ks).
      { clear. intros ks. unfold pbuf_components. cbn [pb_root pb_comps app flat_map comp_text].
        induction ks as [|x ks IH]; [reflexivity|]. cbn. rewrite IH. reflexivity. }
      destruct (is_absolute q); cbn [app fold_left normalize_step pbuf_push].
      - change {| pb_root := true; pb_comps := [] |} with {| pb_root := true; pb_comps := map Normal [] |}.
        rewrite (Nf (ws q) [] (Lv q)), Out. unfold ws. apply walkf_filter.
      - rewrite (Nf (ws q) ns (Lv q)), Out. unfold ws. apply walkf_filter. }
    rewrite E. split.
    + intros H. injection H as H. do 2 f_equal. apply (spelling_inj _ ms); [|exact G|unfold spelling; f_equal; exact H].
      apply walkf_names; [apply split_slash_spec|destruct (is_absolute q); [constructor|exact F]].
    + intros H. injection H as ->. reflexivity.
  - intros ms b G. unfold vfs_pop, abs_pop. rewrite pop_spelling by exact F. unfold vpath_pop.
    destruct ns as [|x l].
    + split; intros H.
      * apply pair_equal_spec in H. destruct H as [H <-]. apply (spelling_inj [] ms) in H; [subst ms; reflexivity|constructor|exact G].
      * injection H as <- <-. reflexivity.
    + split; intros H.
      * apply pair_equal_spec in H. destruct H as [H <-]. apply (spelling_inj (removelast (x :: l)) ms) in H; [subst ms; reflexivity|apply Forall_removelast; exact F|exact G].
      * injection H as <- <-. reflexivity.
  - intros ms G. cbn [vpath_starts_with]. apply eq_iff_eq_true. unfold abs_starts_with.
    rewrite (starts_with_ws _ _ (spelling_rooted ns) (spelling_rooted ms)), !ws_spelling, texts_prefix_spec by assumption. reflexivity.
  - apply spelling_real.
Qed.

(** Paths given to the file system that lead to one file are one path. *)
Theorem C65_same_file_same_path : forall p q, rooted p -> rooted q ->
  (vfs_from p = vfs_from q <-> exists ns, leads [] p ns /\ leads [] q ns) /\ vfs_from (vfs_from p) = vfs_from p.
Proof.
  intros p q P Q. destruct (C65_stored_spelling p P) as (ns & L & F & E & U), (C65_stored_spelling q Q) as (ms & M & G & E' & U').
  split.
  - rewrite E, E'. split; [intros H; apply spelling_inj in H; auto; subst ms; eauto|]. intros (ks & K1 & K2).
    rewrite <- (U _ K1), <- (U' _ K2). reflexivity.
  - rewrite E. unfold vfs_from. rewrite (normalize_rooted _ (spelling_rooted ns)), <- walkf_filter. fold (ws (spelling ns)).
    rewrite ws_spelling, (walkf_name_list [] ns F) by exact F. reflexivity.
Qed.

(** The form in which paths are compared when files are assigned to source roots
    is the same in both models, and no path on disk has that of a virtual path. *)
Theorem C65_encodings_agree : forall ns,
  vfs_encode (spelling (map encode ns)) = vpath_encode (Real ns) /\
  forall p s, vfs_encode p <> vpath_encode (Virtual s).
Proof.
  intros ns. split; [|discriminate]. rewrite spelling_real. unfold vfs_encode, vpath_encode. f_equal.
  assert (G : forall l, flat_map (fun c => cSlash :: c) (map encode l) = encode (flat_map (fun c => cSlash :: c) l)).
  { clear. induction l as [|x l IH]; [reflexivity|]. cbn [map flat_map]. rewrite encode_app, IH.
    change (encode (cSlash :: x)) with (cSlash :: encode x). reflexivity. }
  destruct ns as [|n ns]; [reflexivity|]. exact (G (n :: ns)).
Qed.

(** ** C66.  Absolute paths stay absolute, and none of the wrappers panics. *)

(** Only absolute paths are taken, and all of them. *)
Theorem C66_only_absolute_paths : forall p,
  (abs_path_buf p = Some p <-> rooted p) /\ (abs_path_buf p = None <-> ~ rooted p) /\
  (rel_path_buf p = None <-> rooted p) /\ (rel_path_buf p = Some p <-> ~ rooted p) /\
  (exists o, abs_try_from p = Ok o /\ (o = Some p <-> rooted p) /\ (o = None <-> ~ rooted p)) /\
  (abs_path_buf_assert p = Ok p <-> rooted p) /\ (rooted p -> abs_to_path_buf p = Ok p).
Proof.
  intros p. unfold abs_path_buf_assert, abs_to_path_buf, abs_try_from, abs_assert, abs_path_buf, rel_path_buf.
  pose proof (rooted_iff p) as R. destruct (is_absolute p).
  - assert (A : rooted p) by (apply R; reflexivity). cbn [negb bind unwrap].
    repeat split; try discriminate; try contradiction; auto. exists (Some p). repeat split; try discriminate; try contradiction; auto.
  - assert (A : ~ rooted p) by (intros X; apply R in X; discriminate X). cbn [negb bind unwrap].
    repeat split; try discriminate; try contradiction; auto. exists None. repeat split; try discriminate; try contradiction; auto.
Qed.
(** Joining an absolute path gives that path; joining another one appends its
    parts. *)
Theorem C66_join : forall p q, rooted p -> exists r, abs_join p q = Ok r /\ rooted r /\
  (rooted q -> r = q) /\ (~ rooted q -> forall a b, words p a -> words q b -> words r (a ++ b)).
Proof.
  intros p q R. destruct (join_rooted p q R) as (r & J & Rr & E). exists r. split; [exact J|]. split; [exact Rr|]. split.
  - intros Q. apply rooted_iff in Q. subst r. unfold path_push. rewrite Q. reflexivity.
  - intros Q a b A B. apply ws_words in A, B. apply ws_words. subst a b r. symmetry. apply push_ws; [exact R|].
    destruct (is_absolute q) eqn:X; [|reflexivity]. exfalso. apply Q. apply rooted_iff. exact X.
Qed.
(** The parent is the path without its last part; only paths to the root have
    none. *)
Theorem C66_parent : forall p, rooted p ->
  (words p [] /\ abs_parent p = Ok None /\ abs_pop p = (p, false)) \/
  (exists q a s, words p (a ++ [s]) /\ words q a /\ rooted q /\ (exists more, p = q ++ more) /\
     abs_parent p = Ok (Some q) /\ abs_pop p = (q, true)).
Proof.
  intros p R. pose proof (parent_rooted p R) as H. unfold abs_parent, abs_pop, path_pop. destruct (path_parent p) as [q|].
  - right. destruct H as (Rq & M & s & W). exists q, (ws q), s. split; [apply ws_words; congruence|].
    split; [apply ws_words; reflexivity|]. split; [exact Rq|]. split; [exact M|]. unfold abs_assert.
    rewrite (proj1 (rooted_iff q) Rq). split; reflexivity.
  - left. split; [apply ws_words; congruence|]. split; reflexivity.
Qed.
(** What comes after a prefix is a relative path, and joining it to the prefix
    gives the path again. *)
Theorem C66_strip_prefix : forall p base a b, rooted p -> rooted base -> words p a -> words base b ->
  (abs_starts_with p base = true <-> exists more, a = b ++ more) /\
  (abs_starts_with p base = false -> abs_strip_prefix p base = None) /\
  (forall more, a = b ++ more -> exists r q, abs_strip_prefix p base = Some r /\ ~ rooted r /\ words r more /\
     abs_join base r = Ok q /\ words q a /\ path_eqb q p = true).
Proof.
  intros p base a b P B A W. apply ws_words in A, W. subst a b. unfold abs_starts_with, abs_strip_prefix.
  pose proof (strip_prefix_ws p base P B) as H. pose proof (starts_with_ws p base P B) as S.
  split; [exact S|]. split.
  - intros X. destruct (path_strip_prefix p base) as [r|]; [|reflexivity]. destruct H as (_ & _ & H).
    rewrite (proj2 S) in X; [discriminate X|eauto].
  - intros more M. destruct (path_strip_prefix p base) as [r|]; [|exfalso; apply H; eauto].
    destruct H as (Hr & _ & H). destruct (join_rooted base r B) as (q & J & Rq & E).
    assert (Nr : ~ rooted r) by (intros X; apply rooted_iff in X; congruence).
    assert (Wq : ws q = ws p) by (subst q; rewrite H; apply push_ws; assumption).
    exists r, q. split; [reflexivity|]. split; [exact Nr|]. split; [apply ws_words; rewrite M in H; apply app_inv_head in H; exact H|].
    split; [exact J|]. split; [apply ws_words; congruence|]. apply path_eqb_ws; auto.
Qed.
(** A path ends with a relative one if its last parts are those. *)
Theorem C66_ends_with : forall p q a b, rooted p -> ~ rooted q -> ~ starts_dot q -> q <> `"." -> words p a -> words q b ->
  (abs_ends_with p q = true <-> exists front, a = front ++ b).
Proof.
  intros p q a b P Q D1 D2 A B. apply ws_words in A, B. subst a b. apply ends_with_ws; [exact P| |].
  - destruct (is_absolute q) eqn:X; [|reflexivity]. exfalso. apply Q. apply rooted_iff. exact X.
  - destruct (leading_dot q) eqn:X; [|reflexivity]. exfalso. destruct q as [|c [|d q]]; cbn in X; [discriminate X| |].
    + apply N.eqb_eq in X. subst c. apply D2. reflexivity.
    + apply andb_true_iff in X. destruct X as [X Y]. apply N.eqb_eq in X, Y. subst c d. apply D1. exists q. reflexivity.
Qed.
(** Paths are compared part by part. *)
Theorem C66_equality : forall p q a b, rooted p -> rooted q -> words p a -> words q b -> (path_eqb p q = true <-> a = b).
Proof. intros p q a b P Q A B. apply ws_words in A, B. subst a b. apply path_eqb_ws; assumption. Qed.

Lemma file_name_of p a n : rooted p -> words p (a ++ [n]) -> n <> `".." -> path_file_name p = Some n.
Proof.
  intros R W N. apply ws_words in W. unfold path_file_name. rewrite (comps_rooted p R), <- W, map_app. cbn [map].
  rewrite (comp_parse_name n N). change (RootDir :: map comp_parse a ++ [Normal n]) with ((RootDir :: map comp_parse a) ++ [Normal n]).
  rewrite rev_app_distr. reflexivity.
Qed.
(** The name of a file is its last part; what follows the last dot in it, except
    for a dot at its start, is the extension. *)
Theorem C66_names : forall p a n, rooted p -> words p (a ++ [n]) -> n <> `".." ->
  path_file_name p = Some n /\
  (forall stem ext, n = stem ++ cDot :: ext -> stem <> [] -> ~ In cDot ext ->
     path_file_stem p = Some stem /\ path_extension p = Some ext) /\
  (~ (exists stem ext, n = stem ++ cDot :: ext /\ stem <> [] /\ ~ In cDot ext) ->
     path_file_stem p = Some n /\ path_extension p = None).
Proof.
  intros p a n R W N. pose proof (file_name_of p a n R W N) as E. split; [exact E|].
  unfold path_file_stem, path_extension. rewrite E. unfold rsplit_file_at_dot. split.
  - intros stem ext En Ns Nd. rewrite (proj2 (rsplit_Some cDot n stem ext) (conj En Nd)). destruct stem; [contradiction|]. split; reflexivity.
  - intros H. destruct (rsplit_at cDot n) as [[x y]|] eqn:X; [|split; reflexivity].
    apply rsplit_Some in X. destruct X as [-> X]. destruct x as [|c x]; [split; reflexivity|].
    exfalso. apply H. exists (c :: x), y. split; [reflexivity|]. split; [discriminate|exact X].
Qed.
Theorem C66_nameless : forall p, rooted p -> words p [] \/ (exists a, words p (a ++ [`".."])) ->
  path_file_name p = None /\ path_file_stem p = None /\ path_extension p = None.
Proof.
  intros p R H. assert (E : path_file_name p = None).
  { unfold path_file_name. rewrite (comps_rooted p R). destruct H as [H|(a & H)]; apply ws_words in H; rewrite <- H; [reflexivity|].
    rewrite map_app. change (RootDir :: map comp_parse a ++ map comp_parse [`".."]) with ((RootDir :: map comp_parse a) ++ [ParentDir]).
    rewrite rev_app_distr. reflexivity. }
  unfold path_file_stem, path_extension. rewrite E. auto.
Qed.
(** A manifest may be any file but the root directory; then it has a directory. *)
Theorem C66_manifests : forall p, rooted p ->
  (words p [] -> manifest_path p = Ok None) /\
  (~ words p [] -> manifest_path p = Ok (Some p) /\ exists q, manifest_parent p = Ok q /\ rooted q).
Proof.
  intros p R. unfold manifest_path, manifest_parent. destruct (C66_parent p R) as [(W & E & _)|(q & a & s & W & _ & Rq & _ & E & _)]; rewrite E; cbn [bind unwrap].
  - split; [reflexivity|]. intros X. contradiction.
  - split; [|intros _; split; [reflexivity|eauto]]. intros X. exfalso. apply ws_words in W, X. rewrite <- X in W. destruct a; discriminate W.
Qed.

(** ** The hypotheses are met *)
Example sample_path : bytes := `"/src//./lib/../M.tar.move".
Example sample_rooted : rooted sample_path.
Proof. eexists. reflexivity. Qed.
Example sample_stored : vfs_from sample_path = `"/src/M.tar.move" /\ vfs_value (`"/src/M.tar.move").
Proof. split; [reflexivity|]. apply (v_from sample_path). apply sample_rooted. Qed.
Example sample_name s : In s [`"src"; `"M.tar.move"] -> name s.
Proof.
  intros [<-|[<-|[]]]; (split; [reflexivity|split; [discriminate|]]); intros H; cbn in H; repeat (destruct H as [H|H]; [discriminate H|]); destruct H.
Qed.
Example sample_join : vfs_join (`"/src/M.tar.move") (`"../N.move") = Ok (`"/src/N.move") /\
  vfs_join (`"/src") (`"../../../etc//x") = Ok (`"/etc/x") /\ vfs_join (`"/src") (`"/a/./") = Ok (`"/a").
Proof. repeat split. Qed.
Example sample_words : words sample_path [`"src"; `"lib"; `".."; `"M.tar.move"].
Proof. apply ws_words. reflexivity. Qed.
Example sample_parts : abs_strip_prefix sample_path (`"/src/") = Some (`"lib/../M.tar.move") /\
  abs_join (`"/src/") (`"lib/../M.tar.move") = Ok (`"/src/lib/../M.tar.move") /\
  abs_ends_with sample_path (`"..//M.tar.move") = true /\ abs_parent sample_path = Ok (Some (`"/src//./lib/..")) /\
  path_file_stem sample_path = Some (`"M.tar") /\ path_extension sample_path = Some (`"move") /\
  manifest_parent (`"/p/Dove.toml/") = Ok (`"/p").
Proof. repeat split. Qed.

Print Assumptions C65_stored_spelling.
Print Assumptions C65_join.
Print Assumptions C65_pop.
Print Assumptions C65_one_spelling.
Print Assumptions C65_comparisons_agree.
Print Assumptions C65_names_stand_for_paths.
Print Assumptions C65_same_file_same_path.
Print Assumptions C65_encodings_agree.
Print Assumptions C66_only_absolute_paths.
Print Assumptions C66_join.
Print Assumptions C66_parent.
Print Assumptions C66_strip_prefix.
Print Assumptions C66_ends_with.
Print Assumptions C66_equality.
Print Assumptions C66_names.
Print Assumptions C66_nameless.
Print Assumptions C66_manifests.
