(** Lemmas about Database.v *)
From Verif Require Import Base BaseProofs Vfs VfsSpec VfsProofs FileSet FileSetSpec FileSetProofs Database.
Local Open Scope N_scope.

Definition rooted (db : database) (id : N) : Prop :=
  exists r root, alookup N.eqb id (db_file_root db) = Some r /\ alookup N.eqb r (db_roots db) = Some root.

Lemma set_file_roots_spec r ids db :
  let db' := fold_left (fun db id => set_file_root db id r) ids db in
  db_text db' = db_text db /\ db_roots db' = db_roots db /\
  forall id, alookup N.eqb id (db_file_root db') = if existsb (N.eqb id) ids then Some r else alookup N.eqb id (db_file_root db).
Proof.
  revert db; induction ids as [|i ids IH]; intros db; cbn [fold_left existsb].
  - repeat split; auto.
  - destruct (IH (set_file_root db i r)) as [H1 [H2 H3]]. cbn zeta in *.
    split; [rewrite H1; reflexivity|]. split; [rewrite H2; reflexivity|].
    intros id. rewrite H3. cbn [set_file_root db_file_root].
    destruct (existsb (N.eqb id) ids); [rewrite orb_true_r; reflexivity|]. rewrite orb_false_r.
    destruct (id =? i) eqn:E.
    + apply N.eqb_eq in E as ->. apply alookup_insert. apply Neqb_spec.
    + apply N.eqb_neq in E. apply alookup_insert_ne; [apply Neqb_spec|congruence].
Qed.

(** the last root whose files contain [id] *)
Fixpoint root_of (i : N) (roots : list source_root) (id : N) : option N :=
  match roots with
  | [] => None
  | root :: rest =>
      match root_of (i + 1) rest id with
      | Some r => Some r
      | None => if existsb (N.eqb id) (fs_iter (sr_files root)) then Some i else None
      end
  end.
Lemma apply_roots_spec roots : forall i db,
  i + N.of_nat (length roots) <= u32_bound ->
  let db' := apply_roots i roots db in
  db_text db' = db_text db /\
  (forall k, alookup N.eqb k (db_roots db') =
     if (i <=? k) && (k <? i + N.of_nat (length roots)) then nth_error roots (N.to_nat (k - i))
     else alookup N.eqb k (db_roots db)) /\
  (forall id, alookup N.eqb id (db_file_root db') =
     match root_of i roots id with Some r => Some r | None => alookup N.eqb id (db_file_root db) end).
Proof.
  induction roots as [|root rest IH]; intros i db Hlt; cbn [apply_roots length root_of] in *.
  - split; [reflexivity|]. split; [|auto].
    intros k. destruct (i <=? k) eqn:E1; cbn [andb]; auto.
    destruct (k <? _) eqn:E2; auto. lia.
  - rewrite (N.mod_small i u32_bound) by lia.
    set (db1 := fold_left _ _ db).
    pose proof (set_file_roots_spec i (fs_iter (sr_files root)) db) as [F1 [F2 F3]]. fold db1 in F1, F2, F3.
    destruct (IH (i + 1) (set_source_root db1 i root)) as [G1 [G2 G3]]; [lia|]. cbn zeta in *.
    split; [rewrite G1; cbn; apply F1|]. split.
    + intros k. rewrite G2. cbn [set_source_root db_roots].
      destruct (N.eq_dec k i) as [->|Hne].
      * destruct (i + 1 <=? i) eqn:E; [lia|]. cbn [andb].
        rewrite (alookup_insert _ Neqb_spec). rewrite N.leb_refl. cbn [andb].
        destruct (i <? _) eqn:E2; [|lia]. rewrite N.sub_diag. reflexivity.
      * rewrite (alookup_insert_ne _ Neqb_spec) by congruence. rewrite F2.
        destruct (i <=? k) eqn:E1, (i + 1 <=? k) eqn:E2; try lia; cbn [andb]; auto.
        replace (i + 1 + N.of_nat (length rest)) with (i + N.of_nat (S (length rest))) by lia.
        destruct (k <? _); auto. replace (N.to_nat (k - i)) with (S (N.to_nat (k - (i + 1)))) by lia. reflexivity.
    + intros id. rewrite G3. destruct (root_of (i + 1) rest id); auto.
      cbn [set_source_root db_file_root]. rewrite F3. destruct (existsb _ _); reflexivity.
Qed.

Lemma apply_files_spec files : forall db T,
  (forall id t, In (id, t) files -> rooted db id /\ t = Some (T id)) ->
  exists db', apply_files files db = Ok db' /\ db_roots db' = db_roots db /\ db_file_root db' = db_file_root db /\
  forall id, alookup N.eqb id (db_text db') =
    if existsb (fun f => N.eqb id (fst f)) files then Some (T id) else alookup N.eqb id (db_text db).
Proof.
  induction files as [|[i t] files IH]; intros db T H; cbn [apply_files existsb fst].
  - exists db. auto.
  - destruct (H i t) as [[r [root [Hr Hroot]]] ->]; [left; auto|].
    unfold file_source_root, get_source_root. rewrite Hr. cbn [unwrap bind]. rewrite Hroot. cbn [unwrap bind].
    destruct (IH (set_file_text db i (T i)) T) as [db' [H1 [H2 [H3 H4]]]].
    + intros id t Hin. apply (H id t). right; auto.
    + exists db'. split; [exact H1|]. split; [exact H2|]. split; [exact H3|].
      intros id. rewrite H4. destruct (existsb _ files); [rewrite orb_true_r; reflexivity|]. rewrite orb_false_r.
      cbn [set_file_text db_text]. destruct (id =? i) eqn:E.
      * apply N.eqb_eq in E as ->. apply (alookup_insert _ Neqb_spec).
      * apply N.eqb_neq in E. apply (alookup_insert_ne _ Neqb_spec); congruence.
Qed.

(** ** Root configurations *)
Definition config_ok (c : root_config) : Prop :=
  exists roots, fsc_build roots = Ok (rc_fsc c) /\ N.of_nat (length roots) < u32_max.
Definition root_is_library (c : root_config) (p : vpath) : bool :=
  negb (existsb (Nat.eqb (fsc_classify (rc_fsc c) p)) (rc_local c)).
Lemma config_ok_default : config_ok root_config_default.
Proof. exists []. split; vm_compute; reflexivity. Qed.

Lemma number_roots_spec local sets : forall i k,
  nth_error (number_roots local i sets) k =
  option_map (fun s => {| sr_library := negb (existsb (Nat.eqb (i + k)) local); sr_files := s |}) (nth_error sets k).
Proof.
  induction sets as [|s sets IH]; intros i k; [destruct k; reflexivity|].
  destruct k as [|k]; cbn [number_roots nth_error option_map]; [rewrite Nat.add_0_r; reflexivity|].
  rewrite IH. replace (S i + k)%nat with (i + S k)%nat by lia. reflexivity.
Qed.
Lemma number_roots_length local sets i : length (number_roots local i sets) = length sets.
Proof. revert i; induction sets as [|s sets IH]; intros i; cbn; auto. Qed.

(** the root a file is assigned to *)
Definition file_rooted (c : root_config) (db : database) (id : N) (p : vpath) : Prop :=
  exists root, alookup N.eqb id (db_file_root db) = Some (N.of_nat (fsc_classify (rc_fsc c) p)) /\
    alookup N.eqb (N.of_nat (fsc_classify (rc_fsc c) p)) (db_roots db) = Some root /\
    sr_library root = root_is_library c p /\ fs_path_for_file (sr_files root) id = Some p.
Lemma file_rooted_rooted c db id p : file_rooted c db id p -> rooted db id.
Proof. intros [root [H1 [H2 _]]]. exists (N.of_nat (fsc_classify (rc_fsc c) p)), root. auto. Qed.

Lemma root_of_only roots id k : forall i,
  (forall j root, nth_error roots j = Some root -> (existsb (N.eqb id) (fs_iter (sr_files root)) = true <-> i + N.of_nat j = k)) ->
  i <= k < i + N.of_nat (length roots) ->
  root_of i roots id = Some k.
Proof.
  induction roots as [|root rest IH]; intros i H Hk; cbn [root_of length] in *; [lia|].
  destruct (N.eq_dec i k) as [<-|Hne].
  - assert (Hn : root_of (i + 1) rest id = None).
    { assert (G : forall l m, (forall j r, nth_error l j = Some r -> existsb (N.eqb id) (fs_iter (sr_files r)) = false) -> root_of m l id = None).
      { induction l as [|r l IHl]; intros m Hl; cbn [root_of]; auto. rewrite IHl by (intros j r' Hj; apply (Hl (S j)); auto).
        rewrite (Hl O r); auto. }
      apply G. intros j r Hj. pose proof (H (S j) r Hj) as Hs.
      destruct (existsb _ _); auto. exfalso. assert (i + N.of_nat (S j) = i) by (apply Hs; auto). lia. }
    rewrite Hn. pose proof (H O root eq_refl) as H0. destruct (existsb _ _); auto.
    exfalso. assert (false = true) by (apply H0; lia). discriminate.
  - rewrite IH; auto; [|lia]. intros j r Hj. rewrite (H (S j) r Hj). lia.
Qed.

Lemma existsb_keys {V} id (m : list (N * V)) : existsb (N.eqb id) (map fst m) = true <-> alookup N.eqb id m <> None.
Proof.
  rewrite existsb_exists. rewrite (alookup_None _ Neqb_spec). split.
  - intros [x [Hx E]] Hn. apply N.eqb_eq in E as ->. auto.
  - intros H. destruct (in_dec N.eq_dec id (map fst m)) as [Hi|Hi]; [|contradiction].
    exists id. split; auto. apply N.eqb_refl.
Qed.

(** Applying a fresh partition assigns every live file to its root. *)
Lemma partition_applied c v db :
  config_ok c -> vfs_inv v ->
  exists roots, root_partition c v = Ok roots /\
    let db' := apply_roots 0 roots db in
    db_text db' = db_text db /\
    (forall id p, live v id = true -> vfs_file_path v id = Ok p -> file_rooted c db' id p).
Proof.
  intros [rs [Hb Hn]] Hinv. destruct (partition_spec rs (rc_fsc c) v Hb Hinv) as [sets [Hs [Hl Hd]]].
  unfold root_partition. rewrite Hs. cbn [bind]. eexists. split; [reflexivity|]. cbn zeta.
  set (roots := number_roots (rc_local c) 0 sets).
  assert (Hlr : length roots = S (length rs)) by (unfold roots; rewrite number_roots_length; lia).
  destruct (apply_roots_spec roots 0 db) as [H1 [H2 H3]]; [rewrite Hlr; unfold u32_bound, u32_max in *; lia|]. cbn zeta in *.
  split; [exact H1|]. intros id p Hlive Hp.
  pose proof (classify_owns rs (rc_fsc c) p Hb) as Ho. pose proof (owns_lt _ _ _ Ho) as Hlt.
  set (k := fsc_classify (rc_fsc c) p) in *.
  destruct (nth_error sets k) as [f|] eqn:Ek; [|apply nth_error_None in Ek; lia].
  exists {| sr_library := negb (existsb (Nat.eqb k) (rc_local c)); sr_files := f |}.
  assert (Hr : root_of 0 roots id = Some (N.of_nat k)).
  { apply root_of_only; [|lia]. intros j root Hj. unfold roots in Hj. rewrite number_roots_spec in Hj.
    destruct (nth_error sets j) as [g|] eqn:Ej; cbn in Hj; [|discriminate]. injection Hj as <-. cbn [sr_files].
    unfold fs_iter. rewrite existsb_keys. destruct (Hd j g Ej) as [Hd1 _].
    fold (fs_path_for_file g id). destruct (fs_path_for_file g id) as [q|] eqn:Eq.
    - destruct (proj1 (Hd1 id q) Eq) as [_ [Hq Hc]]. assert (q = p) by congruence. subst q. fold k in Hc. subst j.
      split; [lia|discriminate].
    - split; [intros []; auto|]. intros Hjk. exfalso. assert (j = k) by lia. subst j.
      assert (fs_path_for_file g id = Some p) by (apply Hd1; auto). congruence. }
  split; [rewrite H3, Hr; reflexivity|]. split; [|split; [reflexivity|]; cbn [sr_files]; apply (proj1 (Hd k f Ek)); auto].
  change (fsc_classify (rc_fsc c) p) with k. rewrite H2. destruct (0 <=? N.of_nat k) eqn:E0; [|lia]. cbn [andb]. rewrite Hlr. destruct (N.of_nat k <? 0 + N.of_nat (S (length rs))) eqn:E; [|lia].
  rewrite N.sub_0_r, Nat2N.id. unfold roots. rewrite number_roots_spec, Ek. reflexivity.
Qed.
