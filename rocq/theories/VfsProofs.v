From Verif Require Import Base BaseProofs Utf8 Vfs VfsSpec.
Local Open Scope N_scope.

Lemma texts_eqb_eq a b : texts_eqb a b = true <-> a = b.
Proof.
  revert b; induction a as [|x a IH]; intros [|y b]; cbn; split; intros H; try discriminate; auto.
  - apply andb_prop in H as [H1 H2]. apply text_eqb_eq in H1. apply IH in H2. congruence.
  - injection H as -> ->. rewrite text_eqb_refl. apply IH; reflexivity.
Qed.
Lemma vpath_eqb_eq a b : vpath_eqb a b = true <-> a = b.
Proof.
  destruct a, b; cbn; split; intros H; try discriminate.
  - apply texts_eqb_eq in H; congruence.
  - injection H as ->. apply texts_eqb_eq; auto.
  - apply text_eqb_eq in H; congruence.
  - injection H as ->. apply text_eqb_refl.
Qed.
Lemma vpath_eqb_refl a : vpath_eqb a a = true.
Proof. apply vpath_eqb_eq; auto. Qed.
Lemma vpath_eqb_neq a b : vpath_eqb a b = false <-> a <> b.
Proof.
  split; intros H.
  - intros ->. rewrite vpath_eqb_refl in H; discriminate.
  - destruct (vpath_eqb a b) eqn:E; auto. apply vpath_eqb_eq in E; contradiction.
Qed.
Lemma bytes_eqb_eq a b : bytes_eqb a b = true <-> a = b.
Proof. exact (text_eqb_eq a b). Qed.

(** ** Interner *)
Lemma index_of_Some p l i : index_of p l = Some i -> nth_error l i = Some p.
Proof.
  revert i; induction l as [|x l IH]; intros i; cbn; [discriminate|].
  destruct (vpath_eqb x p) eqn:E.
  - intros H; injection H as <-. apply vpath_eqb_eq in E as ->. reflexivity.
  - destruct (index_of p l) as [j|]; cbn; [|discriminate]. intros H; injection H as <-.
    cbn [nth_error]. apply IH; reflexivity.
Qed.
Lemma index_of_None p l : index_of p l = None <-> ~ In p l.
Proof.
  induction l as [|x l IH]; cbn; [tauto|].
  destruct (vpath_eqb x p) eqn:E.
  - apply vpath_eqb_eq in E as ->. split; [discriminate|tauto].
  - apply vpath_eqb_neq in E. destruct (index_of p l) eqn:Ei; cbn.
    + split; [discriminate|]. intros H. exfalso. apply H. right.
      apply index_of_Some in Ei. eapply nth_error_In; eauto.
    + tauto.
Qed.
Lemma index_of_nth p l i : NoDup l -> nth_error l i = Some p -> index_of p l = Some i.
Proof.
  revert i; induction l as [|x l IH]; intros i Hnd; [destruct i; discriminate|].
  inversion Hnd as [|? ? Hx Hnd']; subst. destruct i as [|i]; cbn.
  - intros H; injection H as ->. rewrite vpath_eqb_refl. reflexivity.
  - intros H. destruct (vpath_eqb x p) eqn:E.
    + apply vpath_eqb_eq in E as ->. exfalso. apply Hx. eapply nth_error_In; eauto.
    + rewrite (IH i); auto.
Qed.
Lemma index_of_app_l p l m i : index_of p l = Some i -> index_of p (l ++ m) = Some i.
Proof.
  revert i; induction l as [|x l IH]; intros i; cbn; [discriminate|].
  destruct (vpath_eqb x p); auto. destruct (index_of p l) as [j|]; cbn; [|discriminate].
  intros H; injection H as <-. rewrite (IH j); auto.
Qed.
Lemma index_of_app_r p l m :
  index_of p l = None -> index_of p (l ++ m) = option_map (Nat.add (length l)) (index_of p m).
Proof.
  induction l as [|x l IH]; cbn.
  - intros _. destruct (index_of p m); reflexivity.
  - destruct (vpath_eqb x p); [discriminate|].
    destruct (index_of p l); cbn; [discriminate|]. intros _. rewrite IH by auto.
    destruct (index_of p m); reflexivity.
Qed.

(** ** Invariant *)
Record vfs_inv (v : vfs) : Prop := {
  inv_nodup : NoDup (v_interner v);
  inv_len : length (v_data v) = length (v_interner v)
}.

Lemma vfs_inv_default : vfs_inv vfs_default.
Proof. split; cbn; [constructor|reflexivity]. Qed.

(** Contents of a path, as data. *)
Definition contents (v : vfs) (p : vpath) : option bytes :=
  match index_of p (v_interner v) with
  | Some i => match nth_error (v_data v) i with Some d => d | None => None end
  | None => None
  end.

Lemma set_nth_length {A} (l : list A) n x : length (set_nth l n x) = length l.
Proof. revert n; induction l as [|y l IH]; intros [|n]; cbn; auto. Qed.
Lemma set_nth_eq {A} (l : list A) n x : (n < length l)%nat -> nth_error (set_nth l n x) n = Some x.
Proof. revert n; induction l as [|y l IH]; intros [|n]; cbn; intros; try lia; auto. apply IH; lia. Qed.
Lemma set_nth_ne {A} (l : list A) n m x : n <> m -> nth_error (set_nth l n x) m = nth_error l m.
Proof. revert n m; induction l as [|y l IH]; intros [|n] [|m]; cbn; intros; auto; try lia. Qed.

Lemma index_of_lt p l i : index_of p l = Some i -> (i < length l)%nat.
Proof. intros H. apply index_of_Some in H. apply nth_error_Some. congruence. Qed.

(** The state after allocation: same contents everywhere. *)
Lemma vfs_alloc_spec v p v1 id :
  vfs_inv v -> vfs_alloc v p = Ok (v1, id) ->
  vfs_inv v1 /\ index_of p (v_interner v1) = Some (N.to_nat id) /\
  (forall q, contents v1 q = contents v q) /\ v_changes v1 = v_changes v /\
  (exists ext, v_interner v1 = v_interner v ++ ext) /\
  (forall i, live v1 i = live v i) /\
  (id < N.of_nat (length (v_data v1))).
Proof.
  intros [Hnd Hlen]. unfold vfs_alloc, interner_intern.
  destruct (index_of p (v_interner v)) as [i|] eqn:Ei.
  - destruct (N.of_nat i <? u32_max); cbn [bind]; [|discriminate].
    intros H; injection H as <- <-. pose proof (index_of_lt _ _ _ Ei) as Hi.
    assert (Hr : resize_none (v_data v) (Nat.max (length (v_data v)) (N.to_nat (N.of_nat i) + 1)) = v_data v).
    { unfold resize_none. replace (Nat.max _ _) with (length (v_data v)) by lia.
      rewrite firstn_all, Nat.sub_diag. apply app_nil_r. }
    rewrite Hr. cbn [v_interner v_data v_changes].
    split; [split; auto|]. split; [rewrite Ei; f_equal; lia|].
    split; [reflexivity|]. split; [reflexivity|]. split; [exists []; rewrite app_nil_r; auto|].
    split; [reflexivity|]. lia.
  - destruct (N.of_nat (length (v_interner v)) <? u32_max); cbn [bind]; [|discriminate].
    intros H; injection H as <- <-.
    assert (Hr : resize_none (v_data v) (Nat.max (length (v_data v)) (N.to_nat (N.of_nat (length (v_interner v))) + 1))
                 = v_data v ++ [None]).
    { unfold resize_none. replace (Nat.max _ _) with (length (v_data v) + 1)%nat by lia.
      rewrite firstn_all2 by lia. replace (_ - _)%nat with 1%nat by lia. reflexivity. }
    rewrite Hr. cbn [v_interner v_data v_changes].
    split; [split|split; [|split; [|split; [|split; [|split]]]]]; cbn [v_interner v_data v_changes].
    + apply index_of_None in Ei.
      clear -Hnd Ei. induction (v_interner v) as [|x l IH]; cbn; [constructor; auto; constructor|].
      inversion Hnd; subst. constructor.
      * rewrite in_app_iff; cbn. intros [H|[H|[]]]; [auto|]. subst. apply Ei; left; auto.
      * apply IH; auto. intros H; apply Ei; right; auto.
    + rewrite !app_length; cbn; lia.
    + rewrite index_of_app_r by auto. cbn. rewrite vpath_eqb_refl. cbn. f_equal; lia.
    + intros q. unfold contents; cbn [v_interner v_data].
      destruct (index_of q (v_interner v)) as [j|] eqn:Ej.
      * rewrite (index_of_app_l _ _ _ _ Ej). pose proof (index_of_lt _ _ _ Ej).
        rewrite nth_error_app1 by lia. reflexivity.
      * rewrite index_of_app_r by auto. cbn. destruct (vpath_eqb p q); cbn; auto.
        replace (length (v_interner v) + 0)%nat with (length (v_data v) + 0)%nat by lia.
        rewrite nth_error_app2 by lia. replace (_ - _)%nat with 0%nat by lia. reflexivity.
    + reflexivity.
    + eauto.
    + intros i. unfold live; cbn [v_data].
      destruct (Nat.lt_ge_cases (N.to_nat i) (length (v_data v))).
      * rewrite nth_error_app1 by auto. reflexivity.
      * rewrite nth_error_app2 by auto.
        rewrite (proj2 (nth_error_None (v_data v) (N.to_nat i))) by lia.
        destruct (N.to_nat i - length (v_data v))%nat as [|[|k]]; reflexivity.
    + rewrite app_length; cbn; lia.
Qed.

Definition opt_bytes_eqb (a b : option bytes) : bool :=
  match a, b with
  | None, None => true
  | Some x, Some y => bytes_eqb x y
  | _, _ => false
  end.
Lemma opt_bytes_eqb_eq a b : opt_bytes_eqb a b = true <-> a = b.
Proof.
  destruct a, b; cbn; split; intros H; try discriminate; auto.
  - apply bytes_eqb_eq in H; congruence.
  - injection H as ->. apply bytes_eqb_eq; auto.
Qed.

(** Kind of change, from existence before and after. *)
Definition kind_of (old new : option bytes) : change_kind :=
  match old, new with
  | None, _ => Create
  | Some _, None => Delete
  | Some _, Some _ => Modify
  end.

Lemma vfs_set_spec v p c v' b :
  vfs_inv v -> vfs_set v p c = Ok (v', b) ->
  exists id,
  vfs_inv v' /\ index_of p (v_interner v') = Some (N.to_nat id) /\
  contents v' p = c /\ (forall q, q <> p -> contents v' q = contents v q) /\
  (exists ext, v_interner v' = v_interner v ++ ext) /\
  b = negb (opt_bytes_eqb (contents v p) c) /\
  v_changes v' = v_changes v ++ (if b then [{| cf_id := id; cf_kind := kind_of (contents v p) c |}] else []) /\
  live v id = match contents v p with Some _ => true | None => false end /\
  (forall i, live v' i = if i =? id then match c with Some _ => true | None => false end else live v i).
Proof.
  intros Hinv. unfold vfs_set. destruct (vfs_alloc v p) as [[v1 id]| |] eqn:Ea; cbn [bind]; try discriminate.
  destruct (vfs_alloc_spec v p v1 id Hinv Ea) as [Hinv1 [Hidx [Hcont [Hch [Hext [Hlive Hlt]]]]]].
  unfold vfs_get. destruct (nth_error (v_data v1) (N.to_nat id)) as [old|] eqn:En; cbn [index bind]; [|discriminate].
  assert (Hold : contents v p = old).
  { rewrite <- Hcont. unfold contents. rewrite Hidx, En. reflexivity. }
  assert (Hlv : live v id = match old with Some _ => true | None => false end).
  { rewrite <- Hlive. unfold live. rewrite En. destruct old; reflexivity. }
  (* the unchanged outcome *)
  assert (Gsame : c = old -> (v1, false) = (v', b) -> exists id,
    vfs_inv v' /\ index_of p (v_interner v') = Some (N.to_nat id) /\
    contents v' p = c /\ (forall q, q <> p -> contents v' q = contents v q) /\
    (exists ext, v_interner v' = v_interner v ++ ext) /\
    b = negb (opt_bytes_eqb (contents v p) c) /\
    v_changes v' = v_changes v ++ (if b then [{| cf_id := id; cf_kind := kind_of (contents v p) c |}] else []) /\
    live v id = match contents v p with Some _ => true | None => false end /\
    (forall i, live v' i = if i =? id then match c with Some _ => true | None => false end else live v i)).
  { intros -> H; injection H as <- <-. exists id. rewrite app_nil_r, Hold.
    repeat split; auto; try apply Hinv1.
    - rewrite Hcont; auto.
    - symmetry. rewrite (proj2 (opt_bytes_eqb_eq old old) eq_refl). reflexivity.
    - intros i. rewrite Hlive. destruct (i =? id) eqn:Ei; auto.
      assert (i = id) by lia. subst i. exact Hlv. }
  assert (Gwrite : forall k, k = kind_of old c -> opt_bytes_eqb old c = false ->
    ({| v_interner := v_interner v1;
           v_data := set_nth (v_data v1) (N.to_nat id) c;
           v_changes := v_changes v1 ++ [{| cf_id := id; cf_kind := k |}] |}, true) = (v', b) -> exists id,
    vfs_inv v' /\ index_of p (v_interner v') = Some (N.to_nat id) /\
    contents v' p = c /\ (forall q, q <> p -> contents v' q = contents v q) /\
    (exists ext, v_interner v' = v_interner v ++ ext) /\
    b = negb (opt_bytes_eqb (contents v p) c) /\
    v_changes v' = v_changes v ++ (if b then [{| cf_id := id; cf_kind := kind_of (contents v p) c |}] else []) /\
    live v id = match contents v p with Some _ => true | None => false end /\
    (forall i, live v' i = if i =? id then match c with Some _ => true | None => false end else live v i)).
  { intros k -> Hne H; injection H as <- <-. exists id. rewrite Hold, Hne. destruct Hinv1 as [Hnd1 Hl1].
    cbn [v_interner v_data v_changes].
    split; [split; cbn [v_interner v_data]; auto; rewrite set_nth_length; auto|].
    split; [auto|]. split.
    { unfold contents; cbn [v_interner v_data]. rewrite Hidx, set_nth_eq by lia. reflexivity. }
    split.
    { intros q Hq. rewrite <- Hcont. unfold contents; cbn [v_interner v_data].
      destruct (index_of q (v_interner v1)) as [j|] eqn:Ej; auto.
      rewrite set_nth_ne; auto. intros Hj. subst j.
      apply index_of_Some in Ej. apply index_of_Some in Hidx. congruence. }
    split; [auto|]. split; [reflexivity|]. split; [rewrite Hch; reflexivity|]. split; [exact Hlv|].
    intros i. unfold live; cbn [v_data]. destruct (i =? id) eqn:Ei.
    - assert (i = id) by lia. subst i. rewrite set_nth_eq by lia. destruct c; reflexivity.
    - rewrite set_nth_ne by lia. apply Hlive. }
  destruct old as [o|], c as [n|]; intros H.
  - destruct (bytes_eqb o n) eqn:Eb.
    + injection H as <- <-. apply Gsame; auto. apply bytes_eqb_eq in Eb. congruence.
    + injection H as <- <-. eapply Gwrite; eauto.
  - injection H as <- <-. eapply Gwrite; eauto.
  - injection H as <- <-. eapply Gwrite; eauto.
  - injection H as <- <-. apply Gsame; auto.
Qed.

(** ** Total: no panic while fewer than 2^32 - 1 paths were written *)
Lemma vfs_set_total v p c :
  vfs_inv v -> N.of_nat (length (v_interner v)) < u32_max ->
  exists v' b, vfs_set v p c = Ok (v', b).
Proof.
  intros Hinv Hlt.
  assert (exists v1 id, vfs_alloc v p = Ok (v1, id)) as [v1 [id Ha]].
  { unfold vfs_alloc, interner_intern. destruct (index_of p (v_interner v)) as [i|] eqn:Ei.
    - apply index_of_lt in Ei. destruct (N.of_nat i <? u32_max) eqn:E; [|lia]. cbn [bind]. eauto.
    - destruct (_ <? u32_max) eqn:E; [|lia]. cbn [bind]. eauto. }
  destruct (vfs_alloc_spec v p v1 id Hinv Ha) as [Hinv1 [Hidx [Hcont [Hch [Hext [Hlive Hl]]]]]].
  unfold vfs_set. rewrite Ha. cbn [bind]. unfold vfs_get.
  destruct (nth_error (v_data v1) (N.to_nat id)) as [old|] eqn:En; cbn [index bind].
  2:{ apply nth_error_None in En. lia. }
  destruct old, c; eauto. destruct (bytes_eqb _ _); eauto.
Qed.

Lemma interner_growth v p c v' b : vfs_inv v -> vfs_set v p c = Ok (v', b) ->
  (length (v_interner v') <= S (length (v_interner v)))%nat.
Proof.
  intros Hinv. unfold vfs_set. destruct (vfs_alloc v p) as [[v1 id]| |] eqn:Ea; cbn [bind]; try discriminate.
  assert (Hl : (length (v_interner v1) <= S (length (v_interner v)))%nat).
  { unfold vfs_alloc, interner_intern in Ea. destruct (index_of p (v_interner v)).
    - destruct (_ <? _); cbn [bind] in Ea; [|discriminate]. injection Ea as <- _. cbn; lia.
    - destruct (_ <? _); cbn [bind] in Ea; [|discriminate]. injection Ea as <- _. cbn [v_interner].
      rewrite app_length; cbn; lia. }
  destruct (vfs_get v1 id) as [old| |]; cbn [bind]; try discriminate.
  destruct old as [o|], c as [n|]; intros H; try (injection H as <- <-; exact Hl).
  destruct (bytes_eqb o n); injection H as <- <-; exact Hl.
Qed.

Lemma vfs_run_total ops v :
  vfs_inv v -> N.of_nat (length (v_interner v) + length ops) < u32_max ->
  exists v' outs, vfs_run v ops = Ok (v', outs).
Proof.
  revert v; induction ops as [|o ops IH]; intros v Hinv Hlt; cbn [vfs_run length] in *; [eauto|].
  destruct o as [p c|]; cbn [vfs_step].
  - destruct (vfs_set_total v p c Hinv ltac:(lia)) as [v1 [b Hs]]. rewrite Hs. cbn [bind].
    destruct (vfs_set_spec v p c v1 b Hinv Hs) as [id [Hinv1 _]].
    pose proof (interner_growth _ _ _ _ _ Hinv Hs).
    destruct (IH v1 Hinv1 ltac:(lia)) as [v2 [outs Hr]]. rewrite Hr. cbn [bind]. eauto.
  - cbn [vfs_take_changes bind]. destruct Hinv as [H1 H2].
    destruct (IH {| v_interner := v_interner v; v_data := v_data v; v_changes := [] |}
              ltac:(split; auto) ltac:(cbn [v_interner]; lia)) as [v2 [outs Hr]].
    rewrite Hr. cbn [bind]. eauto.
Qed.

Lemma take_inv v : vfs_inv v -> vfs_inv (fst (vfs_take_changes v)).
Proof. intros [H1 H2]; split; auto. Qed.

(** ** History theorems *)
Lemma vfs_run_cons v o ops v' outs :
  vfs_run v (o :: ops) = Ok (v', outs) ->
  exists v1 x xs, vfs_step v o = Ok (v1, x) /\ vfs_run v1 ops = Ok (v', xs) /\ outs = x :: xs.
Proof.
  cbn [vfs_run]. destruct (vfs_step v o) as [[v1 x]| |]; cbn [bind]; try discriminate.
  destruct (vfs_run v1 ops) as [[v2 xs]| |] eqn:E; cbn [bind]; try discriminate.
  intros H; injection H as <- <-. exists v1, x, xs. auto.
Qed.

Lemma vfs_step_inv v o v1 x : vfs_inv v -> vfs_step v o = Ok (v1, x) -> vfs_inv v1.
Proof.
  intros Hinv. destruct o as [p c|]; cbn [vfs_step].
  - destruct (vfs_set v p c) as [[w b]| |] eqn:E; cbn [bind]; try discriminate.
    intros H; injection H as <- <-. destruct (vfs_set_spec _ _ _ _ _ Hinv E) as [id [H _]]; auto.
  - cbn. intros H; injection H as <- <-. apply (take_inv v Hinv).
Qed.

Lemma vfs_run_inv ops v v' outs : vfs_inv v -> vfs_run v ops = Ok (v', outs) -> vfs_inv v'.
Proof.
  revert v outs; induction ops as [|o ops IH]; intros v outs Hinv H.
  - cbn in H. injection H as <- <-. auto.
  - apply vfs_run_cons in H as [v1 [x [xs [H1 [H2 ->]]]]]. eapply IH; [|eauto].
    eapply vfs_step_inv; eauto.
Qed.

Lemma contents_run ops v v' outs p :
  vfs_inv v -> vfs_run v ops = Ok (v', outs) ->
  contents v' p = last_write p (contents v p) ops.
Proof.
  revert v outs; induction ops as [|o ops IH]; intros v outs Hinv H.
  - cbn in H. injection H as <- <-. reflexivity.
  - apply vfs_run_cons in H as [v1 [x [xs [H1 [H2 ->]]]]].
    rewrite (IH v1 xs); [|eapply vfs_step_inv; eauto|auto].
    destruct o as [q c|]; cbn [vfs_step last_write] in *.
    + destruct (vfs_set v q c) as [[w b]| |] eqn:E; cbn [bind] in H1; try discriminate.
      injection H1 as <- <-. destruct (vfs_set_spec _ _ _ _ _ Hinv E) as [id [_ [_ [Hc [Ho _]]]]].
      destruct (vpath_eqb q p) eqn:Eq.
      * apply vpath_eqb_eq in Eq as ->. rewrite Hc. reflexivity.
      * apply vpath_eqb_neq in Eq. rewrite Ho by auto. reflexivity.
    + cbn in H1. injection H1 as <- <-. reflexivity.
Qed.

(** file_id / file_contents in terms of [contents] *)
Lemma file_id_contents v p :
  vfs_inv v ->
  match contents v p with
  | Some c => exists id, vfs_file_id v p = Ok (Some id) /\ vfs_file_contents v id = Ok c /\ vfs_file_path v id = Ok p
  | None => vfs_file_id v p = Ok None
  end.
Proof.
  intros [Hnd Hlen]. unfold contents, vfs_file_id, interner_get.
  destruct (index_of p (v_interner v)) as [i|] eqn:Ei; cbn [option_map]; [|reflexivity].
  pose proof (index_of_lt _ _ _ Ei). pose proof (index_of_Some _ _ _ Ei) as Hn.
  unfold vfs_get. rewrite Nat2N.id.
  destruct (nth_error (v_data v) i) as [d|] eqn:Ed.
  2:{ apply nth_error_None in Ed. lia. }
  cbn [index bind]. destruct d as [c|]; [|reflexivity].
  exists (N.of_nat i). unfold vfs_file_contents, vfs_get, vfs_file_path, interner_lookup.
  rewrite Nat2N.id, Ed, Hn. auto.
Qed.

(** Interner only grows. *)
Lemma interner_ext_run ops v v' outs :
  vfs_inv v -> vfs_run v ops = Ok (v', outs) -> exists ext, v_interner v' = v_interner v ++ ext.
Proof.
  revert v outs; induction ops as [|o ops IH]; intros v outs Hinv H.
  - cbn in H. injection H as <- <-. exists []. rewrite app_nil_r; auto.
  - apply vfs_run_cons in H as [v1 [x [xs [H1 [H2 ->]]]]].
    destruct (IH v1 xs) as [ext Hext]; [eapply vfs_step_inv; eauto|auto|].
    destruct o as [q c|]; cbn [vfs_step] in H1.
    + destruct (vfs_set v q c) as [[w b]| |] eqn:E; cbn [bind] in H1; try discriminate.
      injection H1 as <- <-.
      destruct (vfs_set_spec _ _ _ _ _ Hinv E) as [id [_ [_ [_ [_ [[e He] _]]]]]].
      exists (e ++ ext). rewrite Hext, He, app_assoc. reflexivity.
    + cbn in H1. injection H1 as <- <-. eauto.
Qed.

Lemma file_path_stable ops v v' outs id p :
  vfs_inv v -> vfs_run v ops = Ok (v', outs) ->
  vfs_file_path v id = Ok p -> vfs_file_path v' id = Ok p.
Proof.
  intros Hinv Hrun. destruct (interner_ext_run _ _ _ _ Hinv Hrun) as [ext Hext].
  unfold vfs_file_path, interner_lookup. rewrite Hext.
  destruct (nth_error (v_interner v) (N.to_nat id)) as [q|] eqn:E; cbn; [|discriminate].
  rewrite nth_error_app1 by (apply nth_error_Some; congruence). rewrite E. auto.
Qed.

Lemma file_path_inj v i j p :
  vfs_inv v -> vfs_file_path v i = Ok p -> vfs_file_path v j = Ok p -> i = j.
Proof.
  intros [Hnd _]. unfold vfs_file_path, interner_lookup.
  destruct (nth_error (v_interner v) (N.to_nat i)) as [a|] eqn:Ei; cbn; [|discriminate].
  destruct (nth_error (v_interner v) (N.to_nat j)) as [b|] eqn:Ej; cbn; [|discriminate].
  intros H1 H2. injection H1 as ->. injection H2 as ->.
  pose proof (index_of_nth _ _ _ Hnd Ei). pose proof (index_of_nth _ _ _ Hnd Ej).
  assert (N.to_nat i = N.to_nat j) by congruence. lia.
Qed.

(** ** Change log *)
Lemma replay_app live0 a b :
  replay live0 (a ++ b) = match replay live0 a with Some l => replay l b | None => None end.
Proof.
  revert live0; induction a as [|c a IH]; intros live0; [reflexivity|].
  cbn [app replay]. destruct (replay1 live0 c); auto.
Qed.

(* pointwise equality of live sets is preserved *)
Definition oeq (a b : option (N -> bool)) : Prop :=
  match a, b with
  | Some x, Some y => forall i, x i = y i
  | None, None => True
  | _, _ => False
  end.

Lemma step_log v o v1 x :
  vfs_inv v -> vfs_step v o = Ok (v1, x) ->
  exists delta, taken [x] ++ v_changes v1 = v_changes v ++ delta /\ oeq (replay (live v) delta) (Some (live v1)).
Proof.
  intros Hinv. destruct o as [p c|]; cbn [vfs_step].
  - destruct (vfs_set v p c) as [[w b]| |] eqn:E; cbn [bind]; try discriminate.
    intros H; injection H as <- <-.
    destruct (vfs_set_spec _ _ _ _ _ Hinv E) as [id [_ [_ [_ [_ [_ [Hb [Hch [Hlo Hl]]]]]]]]].
    cbn [taken app]. eexists; split; [exact Hch|].
    destruct b.
    + cbn [replay replay1]. unfold replay1; cbn [cf_kind cf_id].
      destruct (contents v p) as [o|], c as [n|]; cbn [kind_of]; rewrite Hlo; cbn [replay oeq];
        intros i; rewrite Hl; auto; try (destruct (i =? id); reflexivity).
      * destruct (i =? id) eqn:Ei; auto. assert (i = id) by lia. subst. auto.
      * symmetry in Hb. cbn in Hb. discriminate.
    + cbn [replay oeq]. intros i. rewrite Hl. destruct (i =? id) eqn:Ei; auto.
      assert (i = id) by lia. subst i. rewrite Hlo.
      symmetry in Hb. apply negb_false_iff, opt_bytes_eqb_eq in Hb. rewrite Hb. reflexivity.
  - cbn. intros H; injection H as <- <-. exists []. cbn [replay oeq taken v_changes].
    rewrite !app_nil_r. split; auto.
Qed.

Lemma replay1_ext a b c : (forall i, a i = b i) -> oeq (replay1 a c) (replay1 b c).
Proof.
  intros H. unfold replay1. rewrite (H (cf_id c)).
  destruct (cf_kind c), (b (cf_id c)); cbn; auto; intros i; destruct (i =? cf_id c); auto.
Qed.
Lemma replay_ext log a b : (forall i, a i = b i) -> oeq (replay a log) (replay b log).
Proof.
  revert a b; induction log as [|c log IH]; intros a b H; cbn [replay]; [exact H|].
  pose proof (replay1_ext a b c H) as H1.
  destruct (replay1 a c), (replay1 b c); cbn in H1; try contradiction; auto.
Qed.
Lemma oeq_trans a b c : oeq a b -> oeq b c -> oeq a c.
Proof. destruct a, b, c; cbn; intros; try contradiction; auto. congruence. Qed.

Lemma taken_cons x xs : taken (x :: xs) = taken [x] ++ taken xs.
Proof. destruct x; cbn; rewrite ?app_nil_r; reflexivity. Qed.

Lemma run_log ops v v' outs :
  vfs_inv v -> vfs_run v ops = Ok (v', outs) ->
  exists delta, taken outs ++ v_changes v' = v_changes v ++ delta /\ oeq (replay (live v) delta) (Some (live v')).
Proof.
  revert v outs; induction ops as [|o ops IH]; intros v outs Hinv H.
  - cbn in H. injection H as <- <-. exists []. rewrite app_nil_r. split; [reflexivity|cbn; auto].
  - apply vfs_run_cons in H as [v1 [x [xs [H1 [H2 ->]]]]].
    destruct (step_log v o v1 x Hinv H1) as [d1 [Hd1 Hr1]].
    destruct (IH v1 xs) as [d2 [Hd2 Hr2]]; [eapply vfs_step_inv; eauto|auto|].
    exists (d1 ++ d2). split.
    + rewrite taken_cons, <- app_assoc, Hd2, app_assoc, Hd1, <- app_assoc. reflexivity.
    + rewrite replay_app. destruct (replay (live v) d1) as [l1|]; cbn [oeq] in Hr1; [|contradiction].
      eapply oeq_trans; [apply (replay_ext d2 l1 (live v1)); auto|exact Hr2].
Qed.

(** Every file whose contents changed since the log was last empty is logged. *)
Lemma run_log_complete ops v v' outs p :
  vfs_inv v -> vfs_run v ops = Ok (v', outs) ->
  contents v' p <> contents v p ->
  exists id c, vfs_file_path v' id = Ok p /\ In c (taken outs ++ v_changes v') /\ cf_id c = id.
Proof.
  revert v outs; induction ops as [|o ops IH]; intros v outs Hinv H Hne.
  - cbn in H. injection H as <- <-. contradiction.
  - apply vfs_run_cons in H as [v1 [x [xs [H1 [H2 ->]]]]].
    assert (Hinv1 : vfs_inv v1) by (eapply vfs_step_inv; eauto).
    destruct (opt_bytes_eqb (contents v' p) (contents v1 p)) eqn:Eq.
    + apply opt_bytes_eqb_eq in Eq. rewrite Eq in Hne.
      destruct o as [q c|]; cbn [vfs_step] in H1.
      2:{ cbn in H1. injection H1 as <- <-. contradiction. }
      destruct (vfs_set v q c) as [[w b]| |] eqn:E; cbn [bind] in H1; try discriminate.
      injection H1 as <- <-.
      destruct (vfs_set_spec _ _ _ _ _ Hinv E) as [id [_ [Hidx [Hc [Ho [_ [Hb [Hch _]]]]]]]].
      destruct (vpath_eqb q p) eqn:Eqp.
      2:{ apply vpath_eqb_neq in Eqp. exfalso; apply Hne. apply Ho; auto. }
      apply vpath_eqb_eq in Eqp as ->.
      assert (Hbt : b = true).
      { destruct b; auto. symmetry in Hb. apply negb_false_iff, opt_bytes_eqb_eq in Hb. congruence. }
      exists id, {| cf_id := id; cf_kind := kind_of (contents v p) c |}.
      split; [|split; [|reflexivity]].
      * eapply file_path_stable; eauto. unfold vfs_file_path, interner_lookup.
        rewrite (index_of_Some _ _ _ Hidx). reflexivity.
      * destruct (run_log ops w v' xs Hinv1 H2) as [d [Hd _]].
        cbn [taken]. rewrite Hd, Hch. apply in_or_app; left; apply in_or_app; right. rewrite Hbt. left. reflexivity.
    + destruct (IH v1 xs Hinv1 H2) as [id [c [Hp [Hin Hid]]]].
      { intros Heq. rewrite Heq in Eq. rewrite (proj2 (opt_bytes_eqb_eq _ _) eq_refl) in Eq. discriminate. }
      exists id, c. split; auto. split; auto. rewrite taken_cons, <- app_assoc, in_app_iff. auto.
Qed.
