(** Properties C09-C16: virtual file system, source roots, paths, loader.
    Specifications: VfsSpec.v, FileSetSpec.v and PathSpec.v. *)
From Coq Require Import String.
From Verif Require Import Base BaseProofs Utf8 Utf8Proofs Vfs VfsSpec VfsProofs VfsPath FileSet FileSetSpec
  FileSetProofs Loader PathSpec PathProofs.
Local Open Scope N_scope.

(** A VFS reached from the empty one by some history of writes and
    take_changes calls. *)
Definition reached (ops : list vop) (v : vfs) (outs : list vout) : Prop :=
  vfs_run vfs_default ops = Ok (v, outs).

Lemma reached_inv ops v outs : reached ops v outs -> vfs_inv v.
Proof. intros H. eapply vfs_run_inv; [apply vfs_inv_default|exact H]. Qed.

(** Histories shorter than 2^32-1 operations never panic. *)
Theorem C09_histories_run : forall ops, N.of_nat (length ops) < u32_max ->
  exists v outs, reached ops v outs.
Proof. intros ops H. apply vfs_run_total; [apply vfs_inv_default|exact H]. Qed.

(** C09 *)
Theorem C09_vfs_returns_last_write : forall ops v outs p,
  reached ops v outs ->
  match last_write p None ops with
  | Some c => exists id, vfs_file_id v p = Ok (Some id) /\ vfs_file_contents v id = Ok c
  | None => vfs_file_id v p = Ok None
  end.
Proof.
  intros ops v outs p H. pose proof (reached_inv _ _ _ H) as Hi.
  pose proof (contents_run ops vfs_default v outs p vfs_inv_default H) as Hc.
  change (contents vfs_default p) with (@None bytes) in Hc. rewrite <- Hc.
  pose proof (file_id_contents v p Hi) as Hf. destruct (contents v p); auto.
  destruct Hf as [id [H1 [H2 _]]]. eauto.
Qed.

(** C10 *)
Theorem C10_file_ids_stable : forall ops v outs more v' outs' id p,
  reached ops v outs -> vfs_run v more = Ok (v', outs') ->
  vfs_file_id v p = Ok (Some id) ->
  vfs_file_path v id = Ok p /\ vfs_file_path v' id = Ok p.
Proof.
  intros ops v outs more v' outs' id p H Hm Hid. pose proof (reached_inv _ _ _ H) as Hi.
  assert (Hp : vfs_file_path v id = Ok p).
  { pose proof (file_id_contents v p Hi) as Hf. destruct (contents v p).
    - destruct Hf as [id' [H1 [_ H3]]]. congruence.
    - congruence. }
  split; auto. eapply file_path_stable; eauto.
Qed.
Theorem C10_file_ids_unique : forall ops v outs i j p,
  reached ops v outs -> vfs_file_path v i = Ok p -> vfs_file_path v j = Ok p -> i = j.
Proof. intros ops v outs i j p H. apply file_path_inj. eapply reached_inv; eauto. Qed.

(** C11: one write. *)
Theorem C11_write_logs_exactly_real_changes : forall ops v outs p c v' b,
  reached ops v outs -> vfs_set v p c = Ok (v', b) ->
  exists id, vfs_file_path v' id = Ok p /\
  (b = true <-> last_write p None ops <> c) /\
  v_changes v' = v_changes v ++
    (if b then [{| cf_id := id;
                   cf_kind := match last_write p None ops, c with
                              | None, _ => Create | Some _, None => Delete | Some _, Some _ => Modify
                              end |}]
     else []).
Proof.
  intros ops v outs p c v' b H Hs. pose proof (reached_inv _ _ _ H) as Hi.
  pose proof (contents_run ops vfs_default v outs p vfs_inv_default H) as Hc.
  change (contents vfs_default p) with (@None bytes) in Hc.
  destruct (vfs_set_spec _ _ _ _ _ Hi Hs) as [id [_ [Hx [_ [_ [_ [Hb [Hch _]]]]]]]].
  exists id. split.
  { apply index_of_Some in Hx. unfold vfs_file_path, interner_lookup. rewrite Hx. reflexivity. }
  rewrite Hc in *. split.
  - subst b. rewrite negb_true_iff. split; intros H1.
    + intros H2. apply opt_bytes_eqb_eq in H2. congruence.
    + destruct (opt_bytes_eqb _ c) eqn:E; auto. apply opt_bytes_eqb_eq in E. contradiction.
  - rewrite Hch. unfold kind_of. reflexivity.
Qed.
(** C11: the whole log, handed out or pending, replayed from the empty set of
    files gives the current live files, and every step of it is legal. *)
Theorem C11_log_replays_to_live_files : forall ops v outs,
  reached ops v outs ->
  exists l, replay (fun _ => false) (taken outs ++ v_changes v) = Some l /\ forall i, l i = live v i.
Proof.
  intros ops v outs H. destruct (run_log ops vfs_default v outs vfs_inv_default H) as [d [Hd Hr]].
  cbn [v_changes vfs_default app] in Hd. rewrite Hd.
  assert (He : forall i, live vfs_default i = false) by (intros i; unfold live; cbn; destruct (N.to_nat i); auto).
  pose proof (replay_ext d _ _ He) as Hx.
  destruct (replay (live vfs_default) d), (replay (fun _ => false) d); cbn in *; try contradiction.
  eexists; split; [reflexivity|]. intros i. rewrite <- Hx. auto.
Qed.
(** C11: nothing is missed between two calls of take_changes. *)
Theorem C11_log_is_complete : forall ops v outs more v' outs' p,
  reached (ops ++ [VTake]) v outs -> vfs_run v more = Ok (v', outs') ->
  last_write p None (ops ++ [VTake]) <> last_write p (last_write p None (ops ++ [VTake])) more ->
  exists id c, vfs_file_path v' id = Ok p /\ In c (taken outs' ++ v_changes v') /\ cf_id c = id.
Proof.
  intros ops v outs more v' outs' p H Hm Hne. pose proof (reached_inv _ _ _ H) as Hi.
  pose proof (contents_run _ vfs_default v outs p vfs_inv_default H) as Hc.
  change (contents vfs_default p) with (@None bytes) in Hc.
  eapply run_log_complete; eauto.
  rewrite (contents_run more v v' outs' p Hi Hm), Hc. auto.
Qed.

(** C12 *)
Theorem C12_partition_covers_live_files_once : forall ops v outs roots,
  reached ops v outs ->
  exists c sets, fsc_build roots = Ok c /\ fsc_partition c v = Ok sets /\
    length sets = (length roots + 1)%nat /\
    (forall id p, live v id = true -> vfs_file_path v id = Ok p ->
       exists k f, nth_error sets k = Some f /\ owns roots k p /\
         fs_path_for_file f id = Some p /\ fs_file_for_path f p = Some id /\
         forall k' f', nth_error sets k' = Some f' -> k' <> k ->
           fs_path_for_file f' id = None /\ fs_file_for_path f' p = None) /\
    (forall k f id p, nth_error sets k = Some f ->
       fs_path_for_file f id = Some p \/ fs_file_for_path f p = Some id ->
       live v id = true /\ vfs_file_path v id = Ok p).
Proof.
  intros ops v outs roots H. pose proof (reached_inv _ _ _ H) as Hi.
  destruct (fsc_build_ok roots) as [c [Hb _]].
  destruct (partition_spec roots c v Hb Hi) as [sets [H1 [H2 H3]]].
  exists c, sets. split; [auto|]. split; [auto|]. split; [auto|]. split.
  - intros id p Hl Hp. pose proof (classify_owns roots c p Hb) as Ho. pose proof (owns_lt _ _ _ Ho) as Hlt.
    rewrite <- H2 in Hlt. apply nth_error_Some in Hlt.
    destruct (nth_error sets (fsc_classify c p)) as [f|] eqn:Ef; [|contradiction].
    exists (fsc_classify c p), f. split; [auto|]. split; [auto|].
    destruct (H3 _ _ Ef) as [D1 D2]. split; [apply D1; auto|]. split; [apply D2; auto|].
    intros k' f' Hk' Hne. destruct (H3 _ _ Hk') as [D1' D2']. split.
    + destruct (fs_path_for_file f' id) as [q|] eqn:E; auto. apply D1' in E as [_ [Hq Hcl]]. congruence.
    + destruct (fs_file_for_path f' p) as [j|] eqn:E; auto. apply D2' in E as [_ [Hq Hcl]]. congruence.
  - intros k f id p Hk Hx. destruct (H3 _ _ Hk) as [D1 D2].
    destruct Hx as [Hx|Hx]; [apply D1 in Hx|apply D2 in Hx]; tauto.
Qed.

(** C13 *)
Theorem C13_classify_longest_prefix : forall roots c p i,
  fsc_build roots = Ok c -> (owns roots i p <-> fsc_classify c p = i).
Proof.
  intros roots c p i Hb. pose proof (classify_owns roots c p Hb) as Ho. split.
  - intros H. eapply owns_unique; eauto.
  - intros <-; auto.
Qed.
(** The same, in terms of the paths as they are written: kinds of path are kept
    apart, and characters count, not their encoding. *)
Theorem C13_classify_nearest_root : forall roots c p i,
  fsc_build roots = Ok c -> (forall j root, configured roots j root -> proper_path root) -> proper_path p ->
  (nearest roots i p <-> fsc_classify c p = i).
Proof.
  intros roots c p i Hb Hr Hp. rewrite <- (owns_nearest roots i p Hr Hp). apply C13_classify_longest_prefix. exact Hb.
Qed.
(** The nearest enclosing directory wins, as long as no root's text merely
    starts the name of a neighbouring directory; only then can it fail. *)
Theorem C13_classify_nearest_directory : forall roots c p i,
  fsc_build roots = Ok c -> proper_path p ->
  (forall j root, configured roots j root -> proper_path root /\ ~ misleading root p) ->
  (nearest_dir roots i p <-> fsc_classify c p = i).
Proof.
  intros roots c p i Hb Hp H. rewrite <- nearest_dirs by exact H.
  apply C13_classify_nearest_root; auto. intros j root C. apply (H _ _ C).
Qed.
Theorem C13_build_never_fails : forall roots, exists c, fsc_build roots = Ok c.
Proof. intros roots. destruct (fsc_build_ok roots) as [c [H _]]; eauto. Qed.
(** The path-component reading is false: a root "/foo" captures the file
    "/foobar/a", which is not below it. *)
Theorem C13_classified_below_its_root_refuted :
  exists roots c p i, fsc_build roots = Ok c /\ fsc_classify c p = i /\ (i < length roots)%nat /\
    forall root, configured roots i root -> vpath_starts_with p root = false.
Proof.
  exists [[Real [`"foo"]]]. eexists. exists (Real [`"foobar"; `"a"]), O.
  split; [vm_compute; reflexivity|]. split; [vm_compute; reflexivity|]. split; [cbn; lia|].
  intros root [ps [Hn Hin]]. cbn in Hn. injection Hn as <-. destruct Hin as [<-|[]]. vm_compute. reflexivity.
Qed.

(** C14 *)
Theorem C14_normalize_is_lexical_simplification : forall p,
  absolute p ->
  clean (normalize_path p) /\ simplifies p (normalize_path p) /\
  (forall q, simplifies p q -> clean q -> q = normalize_path p).
Proof.
  intros p H. split; [apply normalize_clean; auto|]. split; [apply normalize_simplifies; auto|].
  intros q. apply simplifies_unique; auto.
Qed.
Theorem C14_normalize_idempotent : forall p,
  absolute p -> normalize_path (normalize_path p) = normalize_path p.
Proof. exact normalize_idem. Qed.

(** C15: every relative path is [k] leading "../", then [j] leading "./",
    then [rest]; join drops [k] segments of the base and appends [rest]. *)
Theorem C15_join_drops_leading_parents : forall segs k j rest,
  segs <> [] -> Forall no_slash segs -> ~ starts_up (dots j rest) -> ~ starts_dot rest ->
  virt_join (unsplit segs) (ups k (dots j rest)) =
  if (k <? length segs)%nat
  then Some (unsplit (firstn (length segs - k) segs) ++ cSlash :: rest)
  else None.
Proof. exact join_segments. Qed.
Theorem C15_every_path_decomposes : forall base rel,
  (exists segs, segs <> [] /\ Forall no_slash segs /\ base = unsplit segs) /\
  (exists k j rest, rel = ups k (dots j rest) /\ ~ starts_up (dots j rest) /\ ~ starts_dot rest).
Proof.
  intros base rel. split.
  - destruct (split_slash_spec base) as [H1 [H2 H3]]. exists (split_slash base). auto.
  - destruct (ups_decompose rel) as [k [r [-> Hr]]]. destruct (dots_decompose r) as [j [rest [-> Hd]]].
    exists k, j, rest. auto.
Qed.
Theorem C15_pop_undoes_join : forall base s,
  no_slash s -> s <> [] ->
  virt_join base s = Some (base ++ cSlash :: s) /\ virt_pop (base ++ cSlash :: s) = Some base.
Proof. exact join_pop. Qed.
Theorem C15_pop_cuts_at_last_slash : forall s a,
  virt_pop s = Some a <-> exists b, no_slash b /\ s = a ++ cSlash :: b.
Proof. exact virt_pop_Some. Qed.
(** parent chains are finite: [n] parents of [p] with [n] the size of [p] do
    not exist. *)
Fixpoint nth_parent (n : nat) (p : vpath) : option vpath :=
  match n with O => Some p | S n' => match vpath_parent p with Some q => nth_parent n' q | None => None end end.
Theorem C15_parent_chains_end : forall p, exists n, nth_parent n p = None.
Proof.
  intros p. remember (vsize p) as m eqn:Hm. revert p Hm.
  induction m as [m IH] using lt_wf_ind. intros p Hm.
  destruct (vpath_parent p) as [q|] eqn:E.
  - pose proof (parent_smaller p q E). destruct (IH (vsize q)) with (p := q) as [n Hn]; [lia|auto|].
    exists (S n). cbn. rewrite E. auto.
  - exists 1%nat. cbn. rewrite E. auto.
Qed.
(** A path starts with another of the same kind only: real paths by
    components, virtual paths by text. *)
Theorem C15_starts_with : forall p q,
  vpath_starts_with p q = true <->
  match p, q with
  | Real a, Real b => exists more, a = b ++ more
  | Virtual a, Virtual b => exists more, a = b ++ more
  | _, _ => False
  end.
Proof.
  assert (T : forall b a, texts_prefix b a = true <-> exists more, a = b ++ more).
  { induction b as [|x b IH]; intros a; cbn [texts_prefix].
    - split; [exists a; reflexivity|reflexivity].
    - destruct a as [|y a]; [split; [discriminate|intros [m E]; discriminate E]|].
      rewrite andb_true_iff, IH, text_eqb_eq. split.
      + intros [-> [m ->]]. exists m. reflexivity.
      + intros [m E]. injection E as -> ->. split; [reflexivity|exists m; reflexivity]. }
  intros [a|a] [b|b]; cbn [vpath_starts_with]; try (split; [discriminate|intros []]).
  - apply T.
  - unfold virt_starts_with. apply starts_with_spec.
Qed.
(** Virtual name and extension: the last '.' of the last segment, unless it
    starts the name. *)
Theorem C15_name_and_extension : forall dir stem ext,
  no_slash stem -> no_slash ext -> stem <> [] -> ~ In cDot ext ->
  virt_name_and_extension (dir ++ cSlash :: stem ++ cDot :: ext) = Some (stem, Some ext).
Proof.
  intros dir stem ext Hs He Hne Hd. rewrite name_ext_dir.
  - rewrite (proj2 (rsplit_Some cDot _ stem ext)) by auto. destruct stem; [contradiction|reflexivity].
  - unfold no_slash in *. rewrite in_app_iff; cbn [In]. intros [H|[H|H]]; auto. discriminate.
  - destruct stem; discriminate.
Qed.
(** resolve_path: from an anchor file, relative to its directory. *)
Theorem C15_resolve_path : forall f anchor dir name rel,
  fs_path_for_file f anchor = Some (Virtual (dir ++ cSlash :: name)) -> no_slash name ->
  fs_resolve_path f anchor rel =
  Ok (match virt_join dir rel with Some s => fs_file_for_path f (Virtual s) | None => None end).
Proof.
  intros f anchor dir name rel Hf Hn. unfold fs_resolve_path. rewrite Hf. cbn [index bind vpath_pop].
  rewrite virt_pop_app by auto. cbn [fst vpath_join]. destruct (virt_join dir rel); reflexivity.
Qed.
(** It panics exactly for an anchor that is not in the set. *)
Theorem C15_resolve_path_panics_iff : forall f anchor rel,
  (fs_path_for_file f anchor = None <-> exists w, fs_resolve_path f anchor rel = Panic w) /\
  (fs_path_for_file f anchor <> None <-> exists o, fs_resolve_path f anchor rel = Ok o).
Proof.
  intros f anchor rel. unfold fs_resolve_path. destruct (fs_path_for_file f anchor) as [b|] eqn:E; cbn [index bind]; split.
  - split; [discriminate|]. intros [w H]. discriminate H.
  - split; [eauto|discriminate].
  - split; [eauto|reflexivity].
  - split; [congruence|]. intros [o H]. discriminate H.
Qed.
(** Its documentation promises None for an anchor that is not in the set; the
    code indexes and panics. *)
Theorem C15_resolve_path_total_refuted :
  exists f anchor rel w, fs_resolve_path f anchor rel = Panic w.
Proof. exists file_set_default, 0, (`"a"), PIndex. reflexivity. Qed.

(** C16 *)
Theorem C16_loader_filter_longest_rule : forall d path,
  dirs_contains_file d path = true <->
  In (match extension path with Some e => e | None => [] end) (d_extensions d) /\
  exists i, In i (d_include d) /\ ancestor i path /\
    forall e, In e (d_exclude d) -> ancestor e path -> (length e < length i)%nat.
Proof. exact contains_file_spec. Qed.
Theorem C16_directory_filter_longest_rule : forall d path,
  dirs_contains_dir d path = true <->
  exists i, In i (d_include d) /\ ancestor i path /\
    forall e, In e (d_exclude d) -> ancestor e path -> (length e < length i)%nat.
Proof. exact includes_path_spec. Qed.
(** cargo_package_dependency is meant to skip tests/, examples/ and benches/ of
    the package; the excluded paths are absolute, so it does not. *)
Theorem C16_dependency_skips_tests_refuted :
  exists base, entry_contains_file (cargo_package_dependency base) (base ++ [`"tests"; `"a.rs"]) = true.
Proof. exists [`"dep"]. vm_compute. reflexivity. Qed.

(** ** Concrete cases *)
Definition sample_ops : list vop :=
  [VWrite (Real [`"a"]) (Some [1]); VWrite (Virtual (`"/b")) (Some [2]); VTake;
   VWrite (Real [`"a"]) None; VWrite (Real [`"a"; `"c"]) (Some [3]); VWrite (Virtual (`"/b")) (Some [2])].
Example sample_reached : exists v outs, reached sample_ops v outs /\
  vfs_file_id v (Real [`"a"]) = Ok None /\ vfs_file_id v (Real [`"a"; `"c"]) = Ok (Some 2) /\
  outs = [OWrote true; OWrote true;
          OTook [{| cf_id := 0; cf_kind := Create |}; {| cf_id := 1; cf_kind := Create |}];
          OWrote true; OWrote true; OWrote false].
Proof. eexists; eexists; split; [vm_compute; reflexivity|]. repeat split; vm_compute; reflexivity. Qed.
Definition sample_roots : list (list vpath) :=
  [[Real [`"w"]]; [Real [`"w"; `"dep"]; Virtual (`"/")]; [Real [`"w"; `"dep"]]].
Example sample_classify : exists c, fsc_build sample_roots = Ok c /\
  fsc_classify c (Real [`"w"; `"dep"; `"x.move"]) = 1%nat /\
  fsc_classify c (Real [`"w"; `"x.move"]) = 0%nat /\
  fsc_classify c (Real [`"other"]) = 3%nat.
Proof. eexists; split; [vm_compute; reflexivity|]. repeat split; vm_compute; reflexivity. Qed.
Example sample_absolute :
  absolute [RootDir; Normal (`"a"); ParentDir; ParentDir; CurDir; Normal (`"b")] /\
  normalize_path [RootDir; Normal (`"a"); ParentDir; ParentDir; CurDir; Normal (`"b")] = [RootDir; Normal (`"b")].
Proof. split; [eexists; split; [reflexivity|]; cbn; intuition discriminate|reflexivity]. Qed.
Example sample_join : virt_join (`"/a/b/c") (`".././../x/y") = Some (`"/a/b/../x/y") /\
  virt_join (`"/a/b/c") (`"../../x/y") = Some (`"/a/x/y") /\ virt_join (`"/a") (`"../../x") = None.
Proof. repeat split; vm_compute; reflexivity. Qed.
Example sample_loader :
  let d := {| d_extensions := [`"move"]; d_include := [[`"a"]; [`"a"; `"b"; `"c"]]; d_exclude := [[`"a"; `"b"]] |} in
  dirs_contains_file d [`"a"; `"x.move"] = true /\ dirs_contains_file d [`"a"; `"b"; `"x.move"] = false /\
  dirs_contains_file d [`"a"; `"b"; `"c"; `"x.move"] = true /\ dirs_contains_file d [`"a"; `"x.rs"] = false.
Proof. repeat split; vm_compute; reflexivity. Qed.

Example sample_roots_proper : (forall j root, configured sample_roots j root -> proper_path root) /\
  proper_path (Real [`"w"; `"depot"; `"a.move"]) /\ nearest sample_roots 1 (Real [`"w"; `"dep"; `"a.move"]).
Proof.
  assert (P : forall j root, configured sample_roots j root -> proper_path root).
  { intros j root (ps & Hn & Hin).
    assert (X : In root (concat sample_roots)) by (apply in_concat; exists ps; split; [eapply nth_error_In; eauto|exact Hin]).
    cbn in X. repeat (destruct X as [<-|X]; [split; [reflexivity|repeat constructor; try discriminate; cbn; intuition discriminate]|]). destruct X. }
  split; [exact P|]. split; [split; [reflexivity|repeat constructor; try discriminate; cbn; intuition discriminate]|].
  destruct (fsc_build_ok sample_roots) as (c & Hb & _). apply (C13_classify_nearest_root _ c _ _ Hb P).
  - split; [reflexivity|repeat constructor; try discriminate; cbn; intuition discriminate].
  - vm_compute in Hb. injection Hb as <-. vm_compute. reflexivity.
Qed.

Example sample_roots_not_misleading : forall j root, configured sample_roots j root ->
  proper_path root /\ ~ misleading root (Real [`"w"; `"dep"; `"a.move"]).
Proof.
  intros j root C. split; [eapply sample_roots_proper; eauto|]. destruct C as (ps & Hn & Hin).
  assert (X : In root (concat sample_roots)) by (apply in_concat; exists ps; split; [eapply nth_error_In; eauto|exact Hin]).
  cbn in X. intros [[K A] N].
  repeat (destruct X as [<-|X]; [first [discriminate K | apply N; eexists; reflexivity | destruct A as [r A]; vm_compute in A; discriminate A]|]).
  destruct X.
Qed.

Print Assumptions C09_histories_run.
Print Assumptions C09_vfs_returns_last_write.
Print Assumptions C10_file_ids_stable.
Print Assumptions C10_file_ids_unique.
Print Assumptions C11_write_logs_exactly_real_changes.
Print Assumptions C11_log_replays_to_live_files.
Print Assumptions C11_log_is_complete.
Print Assumptions C12_partition_covers_live_files_once.
Print Assumptions C13_classify_longest_prefix.
Print Assumptions C13_classify_nearest_root.
Print Assumptions C13_classify_nearest_directory.
Print Assumptions C15_starts_with.
Print Assumptions C15_resolve_path_panics_iff.
Print Assumptions C13_build_never_fails.
Print Assumptions C13_classified_below_its_root_refuted.
Print Assumptions C14_normalize_is_lexical_simplification.
Print Assumptions C14_normalize_idempotent.
Print Assumptions C15_join_drops_leading_parents.
Print Assumptions C15_every_path_decomposes.
Print Assumptions C15_pop_undoes_join.
Print Assumptions C15_pop_cuts_at_last_slash.
Print Assumptions C15_parent_chains_end.
Print Assumptions C15_name_and_extension.
Print Assumptions C15_resolve_path.
Print Assumptions C15_resolve_path_total_refuted.
Print Assumptions C16_loader_filter_longest_rule.
Print Assumptions C16_directory_filter_longest_rule.
Print Assumptions C16_dependency_skips_tests_refuted.
