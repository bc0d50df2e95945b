(** Property C52: applying a change to the analysis database. *)
From Coq Require Import String.
From Verif Require Import Base BaseProofs Vfs FileSet Database DatabaseProofs.
Local Open Scope N_scope.

(** ** Specification *)
(** the last entry of a list of changes for a file *)
Fixpoint last_change (id : N) (files : list (N * option text)) : option (option text) :=
  match files with
  | [] => None
  | (i, t) :: rest => match last_change id rest with
                      | Some x => Some x
                      | None => if i =? id then Some t else None
                      end
  end.
(** the file [id] belongs to the root number [r], and to no later one *)
Definition last_root (roots : list source_root) (id : N) (r : nat) : Prop :=
  (exists root, nth_error roots r = Some root /\ In id (fs_iter (sr_files root))) /\
  forall r' root, nth_error roots r' = Some root -> In id (fs_iter (sr_files root)) -> (r' <= r)%nat.
Definition in_no_root (roots : list source_root) (id : N) : Prop :=
  forall root, In root roots -> ~ In id (fs_iter (sr_files root)).

(** ** Proofs *)
Lemma apply_files_any files : forall db db', apply_files files db = Ok db' ->
  db_roots db' = db_roots db /\ db_file_root db' = db_file_root db /\ db_local db' = db_local db /\ db_library db' = db_library db /\
  forall id, alookup N.eqb id (db_text db') =
    match last_change id files with
    | Some (Some t) => Some t | Some None => Some [] | None => alookup N.eqb id (db_text db) end.
Proof.
  induction files as [|[i t] files IH]; intros db db' H; cbn [apply_files] in H.
  - injection H as <-. auto.
  - apply bind_ok in H as (r & _ & H). apply bind_ok in H as (root & _ & H).
    apply IH in H as (H1 & H2 & H3 & H4 & H5). do 4 (split; [assumption|]).
    intros id. rewrite H5. cbn [last_change]. destruct (last_change id files) as [[x|]|]; try reflexivity.
    cbn [set_file_text db_text]. destruct (i =? id) eqn:E.
    + apply N.eqb_eq in E as ->. rewrite (alookup_insert _ Neqb_spec). destruct t; reflexivity.
    + apply N.eqb_neq in E. apply (alookup_insert_ne _ Neqb_spec); congruence.
Qed.
Lemma apply_roots_sets roots : forall i db, db_local (apply_roots i roots db) = db_local db /\ db_library (apply_roots i roots db) = db_library db.
Proof.
  induction roots as [|root rest IH]; intros i db; [auto|]. cbn [apply_roots].
  destruct (IH (i + 1) (set_source_root (fold_left (fun db id => set_file_root db id (i mod u32_bound)) (fs_iter (sr_files root)) db) (i mod u32_bound) root)) as [-> ->].
  cbn [set_source_root db_local db_library]. generalize (fs_iter (sr_files root)). intros ids. revert db.
  induction ids as [|x ids IHi]; intros db; [auto|]. cbn [fold_left]. destruct (IHi (set_file_root db x (i mod u32_bound))) as [-> ->]. auto.
Qed.
Lemma existsb_ids id l : existsb (N.eqb id) l = true <-> In id l.
Proof. rewrite existsb_exists. split; [intros (x & H & E); apply N.eqb_eq in E as ->; exact H|]. intros H. exists id. split; [exact H|apply N.eqb_refl]. Qed.
Lemma root_of_some roots : forall i id r, root_of i roots id = Some r -> exists n, r = i + N.of_nat n /\ last_root roots id n.
Proof.
  induction roots as [|root rest IH]; intros i id r; cbn [root_of]; [discriminate|].
  destruct (root_of (i + 1) rest id) as [r'|] eqn:E.
  - intros H. injection H as ->. destruct (IH _ _ _ E) as (n & -> & (x & N1 & I1) & M). exists (S n). split; [lia|].
    split; [exists x; auto|]. intros [|r'] root' H1 H2; [lia|]. cbn in H1. specialize (M _ _ H1 H2). lia.
  - destruct (existsb (N.eqb id) (fs_iter (sr_files root))) eqn:E2; [|discriminate]. intros H. injection H as <-.
    exists O. split; [cbn; lia|]. apply existsb_ids in E2. split; [exists root; auto|].
    intros [|r'] root' H1 H2; [lia|]. exfalso. cbn in H1.
    assert (X : root_of (i + 1) rest id <> None); [|congruence].
    clear -H1 H2. revert H1. generalize (i + 1) as j. revert rest. induction r' as [|r' IHr]; intros rest j H1.
    + destruct rest as [|y rest]; [discriminate|]. injection H1 as ->. cbn [root_of].
      apply existsb_ids in H2. destruct (root_of (j + 1) rest id); [discriminate|]. rewrite H2. discriminate.
    + destruct rest as [|y rest]; [discriminate|]. cbn [nth_error] in H1. specialize (IHr _ (j + 1) H1). cbn [root_of].
      destruct (root_of (j + 1) rest id); [discriminate|]. congruence.
Qed.
Lemma root_of_none roots : forall i id, root_of i roots id = None -> in_no_root roots id.
Proof.
  induction roots as [|root rest IH]; intros i id; cbn [root_of]; [intros _ root []|].
  destruct (root_of (i + 1) rest id) eqn:E; [discriminate|]. destruct (existsb _ _) eqn:E2; [discriminate|]. intros _ x [<- |H].
  - intros I. apply existsb_ids in I. congruence.
  - exact (IH _ _ E x H).
Qed.
Lemma root_ids_spec roots b : forall i k, i + N.of_nat (length roots) <= u32_bound ->
  In k (root_ids i roots b) <-> exists n root, k = i + N.of_nat n /\ nth_error roots n = Some root /\ sr_library root = b.
Proof.
  induction roots as [|root rest IH]; intros i k Hb; cbn [root_ids length] in *.
  - split; [intros []|]. intros (n & x & _ & H & _). destruct n; discriminate.
  - rewrite in_app_iff, (IH (i + 1)) by lia. rewrite (N.mod_small i) by lia. split.
    + intros [H|(n & x & -> & H1 & H2)].
      * destruct (Bool.eqb (sr_library root) b) eqn:E; [|destruct H]. apply Bool.eqb_prop in E.
        destruct H as [<- |[]]. exists O, root. split; [cbn; lia|auto].
      * exists (S n), x. split; [lia|auto].
    + intros (n & x & -> & H1 & H2). destruct n as [|n].
      * injection H1 as ->. left. rewrite H2, Bool.eqb_reflx. left. cbn; lia.
      * right. exists n, x. split; [lia|auto].
Qed.

(** ** The texts: the last one given for a file; a deleted file becomes empty;
    the others stay. *)
Theorem C52_texts : forall c db db' id,
  apply_change c db = Ok db' ->
  file_text db' id = match last_change id (dc_files c) with
                     | Some (Some t) => Ok t
                     | Some None => Ok []
                     | None => file_text db id
                     end.
Proof.
  intros c db db' id H. unfold apply_change, change_apply in H. apply apply_files_any in H as (_ & _ & _ & _ & H).
  unfold file_text. rewrite H. destruct (last_change id (dc_files c)) as [[t|]|]; try reflexivity.
  f_equal. f_equal. destruct (dc_roots c) as [roots|]; [|reflexivity].
  assert (X : forall i db, db_text (apply_roots i roots db) = db_text db).
  { clear. induction roots as [|root rest IH]; intros i db; [reflexivity|]. cbn [apply_roots]. rewrite IH. cbn [set_source_root db_text].
    exact (proj1 (set_file_roots_spec _ _ _)). }
  rewrite X. reflexivity.
Qed.

(** ** The roots: they are numbered in order and hold what was given; a file
    belongs to the last root that lists it; which roots are local and which are
    libraries is as given. *)
Theorem C52_roots : forall roots files db db',
  N.of_nat (length roots) <= u32_bound ->
  apply_change {| dc_roots := Some roots; dc_files := files |} db = Ok db' ->
  (forall n root, nth_error roots n = Some root -> get_source_root db' (N.of_nat n) = Ok root) /\
  (forall r, N.of_nat (length roots) <= r -> get_source_root db' r = get_source_root db r) /\
  (forall id n, last_root roots id n -> file_source_root db' id = Ok (N.of_nat n)) /\
  (forall id, in_no_root roots id -> file_source_root db' id = file_source_root db id) /\
  (forall r, In r (db_local db') <-> exists n root, r = N.of_nat n /\ nth_error roots n = Some root /\ sr_library root = false) /\
  (forall r, In r (db_library db') <-> exists n root, r = N.of_nat n /\ nth_error roots n = Some root /\ sr_library root = true).
Proof.
  intros roots files db db' Hb H. unfold apply_change, change_apply in H. cbn [dc_roots dc_files] in H.
  apply apply_files_any in H as (H1 & H2 & H3 & H4 & _).
  destruct (apply_roots_spec roots 0 (set_root_sets db (root_ids 0 roots false) (root_ids 0 roots true))) as (_ & R1 & R2); [lia|].
  destruct (apply_roots_sets roots 0 (set_root_sets db (root_ids 0 roots false) (root_ids 0 roots true))) as [S1 S2].
  rewrite S1 in H3. rewrite S2 in H4. cbn [set_root_sets db_local db_library] in H3, H4.
  unfold get_source_root, file_source_root. rewrite H1, H2, H3, H4.
  split; [|split; [|split; [|split; [|split]]]].
  - intros n root E. rewrite R1. assert (n < length roots)%nat by (apply nth_error_Some; congruence).
    destruct (0 <=? N.of_nat n) eqn:E1; [|lia]. destruct (N.of_nat n <? 0 + N.of_nat (length roots)) eqn:E2; [|lia]. cbn [andb].
    replace (N.to_nat (N.of_nat n - 0)) with n by lia. rewrite E. reflexivity.
  - intros r Hr. rewrite R1. destruct (r <? 0 + N.of_nat (length roots)) eqn:E2; [lia|]. rewrite andb_false_r. reflexivity.
  - intros id n L. rewrite R2. destruct (root_of 0 roots id) as [r|] eqn:E.
    + apply root_of_some in E as (m & -> & (x & N1 & I1) & M). destruct L as ((y & N2 & I2) & M2).
      specialize (M _ _ N2 I2). specialize (M2 _ _ N1 I1). replace m with n by lia. reflexivity.
    + exfalso. apply root_of_none in E. destruct L as ((y & N2 & I2) & _). apply nth_error_In in N2. exact (E _ N2 I2).
  - intros id L. rewrite R2. destruct (root_of 0 roots id) as [r|] eqn:E; [|reflexivity].
    exfalso. apply root_of_some in E as (m & _ & (x & N1 & I1) & _). apply nth_error_In in N1. exact (L _ N1 I1).
  - intros r. rewrite (root_ids_spec roots false 0) by lia. split; intros (n & x & -> & A); exists n, x; (split; [lia|exact A]).
  - intros r. rewrite (root_ids_spec roots true 0) by lia. split; intros (n & x & -> & A); exists n, x; (split; [lia|exact A]).
Qed.
Theorem C52_no_roots : forall files db db' ,
  apply_change {| dc_roots := None; dc_files := files |} db = Ok db' ->
  (forall r, get_source_root db' r = get_source_root db r) /\
  (forall id, file_source_root db' id = file_source_root db id) /\
  db_local db' = db_local db /\ db_library db' = db_library db.
Proof.
  intros files db db' H. unfold apply_change, change_apply in H. cbn [dc_roots dc_files] in H.
  apply apply_files_any in H as (H1 & H2 & H3 & H4 & _). unfold get_source_root, file_source_root. rewrite H1, H2. auto.
Qed.

(** ** When applying a change panics: exactly when it lists a file that has no
    root, neither a new one nor one set before. *)
Lemma apply_files_ok files : forall db, (forall id t, In (id, t) files -> rooted db id) -> exists db', apply_files files db = Ok db'.
Proof.
  induction files as [|[i t] files IH]; intros db H; cbn [apply_files]; [eauto|].
  destruct (H i t) as (r & root & H1 & H2); [left; reflexivity|].
  unfold file_source_root, get_source_root. rewrite H1. cbn [unwrap bind]. rewrite H2. cbn [unwrap bind].
  apply IH. intros id t' Hin. exact (H id t' (or_intror Hin)).
Qed.
Lemma apply_files_rooted files : forall db db' id t, apply_files files db = Ok db' -> In (id, t) files -> rooted db id.
Proof.
  induction files as [|[i t0] files IH]; intros db db' id t H Hin; [destruct Hin|]. cbn [apply_files] in H.
  apply bind_ok in H as (r & R & H). apply bind_ok in H as (root & G & H). destruct Hin as [E|Hin].
  - injection E as -> ->. unfold file_source_root, get_source_root in *. exists r, root.
    destruct (alookup N.eqb id (db_file_root db)) as [r'|]; [|discriminate]. injection R as ->.
    destruct (alookup N.eqb r (db_roots db)) as [x|]; [|discriminate]. injection G as ->. auto.
  - exact (IH _ _ _ _ H Hin).
Qed.
Lemma apply_files_no_fuel files : forall db, apply_files files db <> Fuel.
Proof.
  induction files as [|[i t] files IH]; intros db; cbn [apply_files]; [discriminate|].
  unfold file_source_root, get_source_root. destruct (alookup N.eqb i (db_file_root db)) as [r|]; [|discriminate]. cbn [unwrap bind].
  destruct (alookup N.eqb r (db_roots db)); [|discriminate]. cbn [unwrap bind]. apply IH.
Qed.
(** the database knows the root of every file that has one (true from the start,
    and kept by every change) *)
Definition roots_known (db : database) : Prop :=
  forall id r, file_source_root db id = Ok r -> exists root, get_source_root db r = Ok root.
Theorem C52_roots_known : roots_known db_new /\ forall c db db', roots_known db ->
  (forall roots, dc_roots c = Some roots -> N.of_nat (length roots) <= u32_bound) ->
  apply_change c db = Ok db' -> roots_known db'.
Proof.
  split; [intros id r H; discriminate H|]. intros [ro files] db db' K Hb H id r F. destruct ro as [roots|].
  - destruct (C52_roots roots files db db' (Hb _ eq_refl) H) as (A1 & A2 & A3 & A4 & _).
    destruct (root_of 0 roots id) as [x|] eqn:E.
    + apply root_of_some in E as (n & -> & L). rewrite (A3 _ _ L) in F. injection F as <-.
      destruct L as ((root & N1 & _) & _). exists root. apply A1. exact N1.
    + rewrite (A4 _ (root_of_none _ _ _ E)) in F. destruct (N.lt_ge_cases r (N.of_nat (length roots))) as [Hr|Hr].
      * destruct (nth_error roots (N.to_nat r)) as [root|] eqn:E2; [|apply nth_error_None in E2; lia].
        exists root. rewrite <- (N2Nat.id r). apply A1. exact E2.
      * rewrite (A2 _ Hr). exact (K _ _ F).
  - destruct (C52_no_roots files db db' H) as (A1 & A2 & _). rewrite A1. rewrite A2 in F. exact (K _ _ F).
Qed.
Theorem C52_panics_iff : forall c db,
  roots_known db -> (forall roots, dc_roots c = Some roots -> N.of_nat (length roots) <= u32_bound) ->
  (exists why, apply_change c db = Panic why) <->
  exists id t, In (id, t) (dc_files c) /\ (forall r, file_source_root db id <> Ok r) /\
    (forall roots, dc_roots c = Some roots -> in_no_root roots id).
Proof.
  intros c db K Hb.
  set (db1 := match dc_roots c with
              | Some roots => apply_roots 0 roots (set_root_sets db (root_ids 0 roots false) (root_ids 0 roots true))
              | None => db end).
  assert (E : apply_change c db = apply_files (dc_files c) db1).
  { unfold apply_change, change_apply, db1. destruct (dc_roots c); reflexivity. }
  assert (D : apply_change {| dc_roots := dc_roots c; dc_files := [] |} db = Ok db1).
  { unfold apply_change, change_apply, db1. cbn [dc_roots dc_files apply_files]. destruct (dc_roots c); reflexivity. }
  pose proof (proj2 C52_roots_known {| dc_roots := dc_roots c; dc_files := [] |} db db1 K Hb D) as K1.
  assert (Rd : forall id, rooted db1 id <-> exists r, file_source_root db1 id = Ok r).
  { intros id. split.
    - intros (r & root & R1 & R2). exists r. unfold file_source_root. rewrite R1. reflexivity.
    - intros (r & R). destruct (K1 _ _ R) as (root & G). unfold file_source_root, get_source_root in R, G.
      destruct (alookup N.eqb id (db_file_root db1)) as [r'|] eqn:R1; [|discriminate]. injection R as ->.
      destruct (alookup N.eqb r (db_roots db1)) as [x|] eqn:R2; [|discriminate]. exists r, x. auto. }
  assert (Un : forall id, ~ rooted db1 id <-> (forall r, file_source_root db id <> Ok r) /\
    (forall roots, dc_roots c = Some roots -> in_no_root roots id)).
  { intros id. rewrite Rd. destruct (dc_roots c) as [roots|] eqn:EC.
    - destruct (C52_roots roots [] db db1 (Hb _ eq_refl) D) as (_ & _ & A3 & A4 & _).
      destruct (root_of 0 roots id) as [x|] eqn:E0.
      + apply root_of_some in E0 as (n & -> & L). split; [intros X; exfalso; apply X; eauto|].
        intros [_ X]. exfalso. destruct L as ((root & N1 & I) & _). apply nth_error_In in N1. exact (X _ eq_refl _ N1 I).
      + apply root_of_none in E0. rewrite (A4 _ E0). split.
        * intros X. split; [intros r Hr; apply X; eauto|]. intros roots' Hr. injection Hr as <-. exact E0.
        * intros [X _] (r & Hr). exact (X _ Hr).
    - destruct (C52_no_roots [] db db1 D) as (_ & A2 & _). rewrite A2. split.
      + intros X. split; [intros r Hr; apply X; eauto|discriminate].
      + intros [X _] (r & Hr). exact (X _ Hr). }
  rewrite E. split.
  - intros (why & P). 
    assert (X : exists id t, In (id, t) (dc_files c) /\ ~ rooted db1 id).
    { assert (Dc : forall id, rooted db1 id \/ ~ rooted db1 id).
      { intros id. unfold rooted. destruct (alookup N.eqb id (db_file_root db1)) as [r|] eqn:R1.
        - destruct (alookup N.eqb r (db_roots db1)) as [x|] eqn:R2; [left; eauto|].
          right. intros (r' & root & H1 & H2). injection H1 as <-. congruence.
        - right. intros (r' & root & H1 & H2). discriminate. }
      assert (Y : (exists p, In p (dc_files c) /\ ~ rooted db1 (fst p)) \/ (forall p, In p (dc_files c) -> rooted db1 (fst p))).
      { clear -Dc. induction (dc_files c) as [|p l IH]; [right; intros p []|]. destruct (Dc (fst p)) as [H|H].
        - destruct IH as [(q & I & N)|A]; [left; exists q; auto using in_cons|]. right. intros q [<- |I]; auto.
        - left. exists p. auto using in_eq. }
      destruct Y as [([id t] & I & N)|A]; [eauto|]. exfalso.
      destruct (apply_files_ok (dc_files c) db1) as [db' R]; [intros id t I; exact (A _ I)|]. congruence. }
    destruct X as (id & t & I & N). exists id, t. split; [exact I|]. apply Un. exact N.
  - intros (id & t & I & N). apply Un in N. destruct (apply_files (dc_files c) db1) as [db'|w|] eqn:P; [|eauto|].
    + exfalso. apply N. exact (apply_files_rooted _ _ _ _ _ P I).
    + exfalso. exact (apply_files_no_fuel _ _ P).
Qed.

(** ** A change that meets the hypotheses: two roots, a new file and a deleted one. *)
Definition sample_set (ids : list N) : file_set :=
  fold_left (fun f id => fs_insert f id (Virtual [47; 97 + id])) ids file_set_default.
Definition sample_roots : list source_root :=
  [ {| sr_library := false; sr_files := sample_set [0; 1] |}; {| sr_library := true; sr_files := sample_set [1; 2] |} ].
Example sample_change :
  match apply_change {| dc_roots := Some sample_roots; dc_files := [(0, Some (`"a")); (1, Some (`"b")); (1, None)] |} db_new with
  | Ok db => file_text db 0 = Ok (`"a") /\ file_text db 1 = Ok [] /\ file_source_root db 1 = Ok 1 /\
      db_local db = [0] /\ db_library db = [1]
  | _ => False end /\
  last_root sample_roots 1 1.
Proof.
  split; [vm_compute; repeat split|]. split; [eexists; split; [reflexivity|vm_compute; auto]|].
  intros [|[|r]] root H I; try lia. destruct r; discriminate.
Qed.

Print Assumptions C52_texts.
Print Assumptions C52_roots.
Print Assumptions C52_no_roots.
Print Assumptions C52_roots_known.
Print Assumptions C52_panics_iff.
