(** Property C64: databases made from descriptions of files.  See FixtureSpec.v. *)
From Coq Require Import String.
From Verif Require Import Base BaseProofs Utf8 Vfs VfsPath VfsSpec VfsProofs FileSet FileSetSpec FileSetProofs Database DatabaseProofs
  Lexer LexerProofs Stdx StdxSpec StdxProofs PropStdx PropDatabase PropTags Fixture FixtureSpec FixtureProofs.
Local Open Scope N_scope.

(** What all the functions of base_db/src/fixture.rs:16-61 do with entries. *)
Definition database_of (entries : list fixture) : res (database * list N * option (N * place)) :=
  let! f := change_fixture_of entries in
  let! db := change_apply (cx_change f) db_new in
  Ok (db, cx_files f, cx_position f).

Lemma filter_shorter {A} (p : A -> bool) l : (List.length (List.filter p l) <= List.length l)%nat.
Proof. induction l as [|x l IH]; cbn; [lia|]. destruct (p x); cbn; lia. Qed.
Lemma in_iter f id : In id (fs_iter f) <-> exists p, fs_path_for_file f id = Some p.
Proof.
  unfold fs_iter, fs_path_for_file. induction (fs_paths f) as [|[k v] m IH]; cbn [map fst In alookup].
  - split; [intros []|intros (p & H); discriminate H].
  - destruct (N.eqb_spec id k) as [->|Ne].
    + rewrite N.eqb_refl. split; [intros _; eexists; reflexivity|intros _; left; reflexivity].
    + destruct (N.eqb_spec k id) as [X|_]; [congruence|]. rewrite IH. split; [intros [X|X]; [congruence|exact X]|intros X; right; exact X].
Qed.
Lemma inv_last_root es s : inv es s -> forall i e, nth_error es i = Some e ->
  last_root (fx_close s) (N.of_nat i) (root_number es i).
Proof.
  intros I i e He. split.
  - pose proof (root_number_le es i) as L. pose proof (i_len _ _ I) as Ln.
    destruct (nth_error (fx_close s) (root_number es i)) as [root|] eqn:R.
    + exists root. split; [reflexivity|]. apply in_iter. exists (Virtual (fx_path e)).
      apply (i_root _ _ I _ _ R). exists i, e. auto.
    + apply nth_error_None in R. lia.
  - intros r root Hr Hin. apply in_iter in Hin. destruct Hin as (p & Hp).
    apply (i_root _ _ I _ _ Hr) in Hp. destruct Hp as (j & f & X & Hj & Rn & _).
    assert (j = i) by lia. subst j. lia.
Qed.
Lemma root_of_last roots : forall i id n, last_root roots id n -> root_of i roots id = Some (i + N.of_nat n).
Proof.
  intros i id n L. destruct (root_of i roots id) as [r|] eqn:E.
  - apply root_of_some in E. destruct E as (m & -> & (x & N1 & I1) & M). destruct L as ((y & N2 & I2) & M2).
    specialize (M _ _ N2 I2). specialize (M2 _ _ N1 I1). f_equal. f_equal. lia.
  - exfalso. apply root_of_none in E. destruct L as ((y & N2 & I2) & _). apply (E y); [eapply nth_error_In; exact N2|exact I2].
Qed.
Lemma change_at changes ids i id t : map fst changes = ids -> NoDup ids ->
  nth_error changes i = Some (id, t) -> last_change id changes = Some t.
Proof.
  intros E ND H. subst ids. revert i H ND. induction changes as [|[k v] rest IH]; intros i H ND; [destruct i; discriminate H|].
  cbn [map fst] in ND. inversion ND as [|? ? N1 N2]; subst. cbn [last_change]. destruct i as [|i].
  - injection H as -> ->.
    assert (X : forall l, ~ In id (map fst l) -> last_change id l = None).
    { clear. induction l as [|[k v] l IH]; intros H; [reflexivity|]. cbn [last_change]. cbn in H.
      rewrite IH by tauto. destruct (N.eqb_spec k id); [exfalso; apply H; auto|reflexivity]. }
    rewrite (X rest N1), N.eqb_refl. reflexivity.
  - rewrite (IH i H N2). reflexivity.
Qed.
Lemma no_change id changes : ~ In id (map fst changes) -> last_change id changes = None.
Proof.
  induction changes as [|[k v] l IH]; intros H; [reflexivity|]. cbn [last_change]. cbn in H.
  rewrite IH by tauto. destruct (N.eqb_spec k id); [exfalso; apply H; auto|reflexivity].
Qed.

Lemma described_by es s : N.of_nat (List.length es) < u32_bound -> inv es s ->
  exists db, change_apply {| dc_roots := Some (fx_close s); dc_files := fx_changes s |} db_new = Ok db /\
    described es db (fx_files s) (fx_position s).
Proof.
  intros L I.
  assert (B : 0 + N.of_nat (List.length (fx_close s)) <= u32_bound).
  { rewrite (i_len _ _ I). unfold started. pose proof (filter_shorter starts_root es). lia. }
  destruct (apply_roots_spec (fx_close s) 0 db_new B) as (T & R1 & R2).
  set (db1 := apply_roots 0 (fx_close s) db_new) in *.
  assert (Fr : forall i e, nth_error es i = Some e ->
    file_source_root db1 (N.of_nat i) = Ok (N.of_nat (root_number es i))).
  { intros i e He. unfold file_source_root. rewrite R2.
    rewrite (root_of_last _ 0 _ _ (inv_last_root es s I i e He)). reflexivity. }
  assert (Gr : forall r root, nth_error (fx_close s) r = Some root -> get_source_root db1 (N.of_nat r) = Ok root).
  { intros r root Hr. unfold get_source_root. rewrite R1. pose proof (nth_error_Some_lt _ _ _ Hr).
    replace ((0 <=? N.of_nat r) && (N.of_nat r <? 0 + N.of_nat (List.length (fx_close s)))) with true by lia.
    replace (N.to_nat (N.of_nat r - 0)) with r by lia. rewrite Hr. reflexivity. }
  assert (Rr : forall i e, nth_error es i = Some e -> exists root,
    nth_error (fx_close s) (root_number es i) = Some root).
  { intros i e He. destruct (inv_last_root es s I i e He) as ((root & H & _) & _). eauto. }
  assert (Ok1 : exists db, apply_files (fx_changes s) db1 = Ok db).
  { apply apply_files_ok. intros id t Hin.
    assert (X : In id (fx_files s)) by (rewrite <- (i_ids _ _ I); apply in_map_iff; exists (id, t); auto).
    rewrite (i_files _ _ I) in X. apply in_map_iff in X. destruct X as (i & <- & X). apply in_seq in X.
    destruct (nth_error es i) as [e|] eqn:He; [|apply nth_error_None in He; lia].
    destruct (Rr i e He) as (root & Hr). specialize (Fr i e He). specialize (Gr _ _ Hr).
    unfold file_source_root, get_source_root in *.
    destruct (alookup N.eqb (N.of_nat i) (db_file_root db1)) as [x|] eqn:E1; [|discriminate Fr]. injection Fr as ->.
    destruct (alookup N.eqb (N.of_nat (root_number es i)) (db_roots db1)) as [y|] eqn:E2; [|discriminate Gr].
    exists (N.of_nat (root_number es i)), y. auto. }
  destruct Ok1 as (db & Hdb). exists db. split; [exact Hdb|].
  destruct (apply_files_any _ _ _ Hdb) as (D1 & D2 & _ & _ & D5).
  assert (ND : NoDup (fx_files s)).
  { rewrite (i_files _ _ I). apply FinFun.Injective_map_NoDup; [intros x y; lia|apply seq_NoDup]. }
  constructor.
  - apply (i_files _ _ I).
  - intros i e He. destruct (i_texts _ _ I i e He) as (t & p & Sh & C). exists t, p. split; [exact Sh|].
    unfold file_text. rewrite D5, (change_at _ _ i _ _ (i_ids _ _ I) ND C). reflexivity.
  - apply (i_position _ _ I).
  - intros i e He. unfold file_source_root. rewrite D2. apply (Fr i e He).
  - intros i e He. destruct (Rr i e He) as (root & Hr). exists root. unfold get_source_root. rewrite D1.
    split; [apply (Gr _ _ Hr)|]. destruct (i_root _ _ I _ _ Hr) as [K P]. split; [exact K|].
    apply P. exists i, e. auto.
  - intros id Hid t. unfold file_text. rewrite D5, no_change.
    + rewrite T. discriminate.
    + rewrite (i_ids _ _ I), (i_files _ _ I). intros X. apply in_map_iff in X. destruct X as (i & <- & X).
      apply in_seq in X. lia.
Qed.

(** C64. Entries make a database exactly if they are acceptable: absolute
    paths, known kinds of roots, dependencies only of named crates, no garbled
    markers, and a place marked in at most one of them. *)
Theorem C64_entries_accepted_iff es :
  N.of_nat (List.length es) < u32_bound -> Forall (fun e => tlen (fx_text e) < u32_bound) es ->
  ((exists d, database_of es = Ok d) <-> acceptable es).
Proof.
  intros L F. unfold database_of, change_fixture_of. split.
  - intros (d & H). destruct (fx_loop es fx_start) as [s|w|] eqn:E; try discriminate H.
    exact (fx_loop_acceptable es s F E).
  - intros A. destruct (fx_loop_total es F L A) as (s & E). rewrite E. cbn [bind cx_change cx_files cx_position].
    destruct (fx_loop_inv es F s E) as [I _]. destruct (described_by es s L I) as (db & H & _).
    rewrite H. cbn [bind]. eexists. reflexivity.
Qed.
Print Assumptions C64_entries_accepted_iff.

(** C64. The database is the one described: the files are numbered in order,
    each has its text without the marker, its path and its root, and the place
    is the one marked. *)
Theorem C64_entries_make_the_database es db files position :
  N.of_nat (List.length es) < u32_bound -> Forall (fun e => tlen (fx_text e) < u32_bound) es ->
  database_of es = Ok (db, files, position) -> described es db files position.
Proof.
  intros L F H. unfold database_of, change_fixture_of in H.
  destruct (fx_loop es fx_start) as [s|w|] eqn:E; try discriminate H. cbn [bind cx_change cx_files cx_position] in H.
  destruct (fx_loop_inv es F s E) as [I _]. destruct (described_by es s L I) as (db' & H' & D).
  rewrite H' in H. cbn [bind] in H. injection H as <- <- <-. exact D.
Qed.
Print Assumptions C64_entries_make_the_database.

(** ** From a text *)

Section Text.
Context (is_uppercase : char -> bool).

Lemma check_line_spec line : (exists w, check_line is_uppercase line = Panic w) <-> bad_line is_uppercase line.
Proof.
  unfold check_line, bad_line. change meta_mark with (`"//-").
  assert (S : forall p, (forall r, line <> p ++ r) <-> starts_with line p = false).
  { intros p. split.
    - intros H. destruct (starts_with line p) eqn:E; [|reflexivity]. apply starts_with_prefix in E. destruct E as (r & E).
      destruct (H r E).
    - intros H r E. rewrite E, starts_with_app in H. discriminate H. }
  assert (S' : forall p, (exists r, line = p ++ r) <-> starts_with line p = true).
  { intros p. split; [intros (r & ->); apply starts_with_app|]. intros H. apply starts_with_prefix in H. exact H. }
  assert (U : forallb (fun c => negb (is_uppercase c)) line = true <-> forall c, In c line -> is_uppercase c = false).
  { rewrite forallb_forall. split; intros H c Hc; specialize (H c Hc); destruct (is_uppercase c); auto; discriminate. }
  assert (N : ~ occurs (`"::") line <-> contains line (`"::") = false).
  { rewrite <- contains_spec. destruct (contains line (`"::")); split; congruence. }
  rewrite S, S', N, <- U, <- !contains_spec.
  destruct (contains line (`"//-")) eqn:C.
  - destruct (starts_with line (`"//-")) eqn:D; cbn [assert_ bind].
    + destruct (starts_with line (`"// ")), (contains line (`":")), (contains line (`"::")),
        (forallb (fun c => negb (is_uppercase c)) line); cbn [andb negb];
        (split; [intros (w & X); try discriminate X; auto|intros X; try (eexists; reflexivity); exfalso; intuition discriminate]).
    + split; [auto|]. intros _. eexists. reflexivity.
  - cbn [bind].
    destruct (starts_with line (`"// ")), (contains line (`":")), (contains line (`"::")),
        (forallb (fun c => negb (is_uppercase c)) line); cbn [andb negb];
        (split; [intros (w & X); try discriminate X; auto|intros X; try (eexists; reflexivity); exfalso; intuition discriminate]).
Qed.
Lemma check_line_ok line : check_line is_uppercase line = Ok tt \/ exists w, check_line is_uppercase line = Panic w.
Proof.
  unfold check_line, assert_. destruct (contains line meta_mark); [destruct (starts_with line meta_mark)|]; cbn [bind];
    try (right; eexists; reflexivity);
    (destruct (_ && _ && _ && _); [right; eexists; reflexivity|left; reflexivity]).
Qed.
Lemma parse_lines_spec lines :
  (parse_lines is_uppercase lines [] = Ok [] /\ Forall (fun l => ~ bad_line is_uppercase l) lines) \/
  (exists w, parse_lines is_uppercase lines [] = Panic w /\ exists l, In l lines /\ bad_line is_uppercase l).
Proof.
  induction lines as [|l lines IH]; [left; split; [reflexivity|constructor]|]. cbn [parse_lines].
  destruct (check_line_ok l) as [E|(w & E)]; rewrite E; cbn [bind].
  - change (push_last [] l) with (@nil fixture).
    assert (G : ~ bad_line is_uppercase l) by (intros X; apply check_line_spec in X; destruct X as (w & X); congruence).
    destruct IH as [[H1 H2]|(w & H1 & x & H2 & H3)].
    + left. split; [exact H1|]. constructor; assumption.
    + right. exists w. split; [exact H1|]. exists x. split; [right; exact H2|exact H3].
  - right. exists w. split; [reflexivity|]. exists l. split; [left; reflexivity|]. apply check_line_spec. eauto.
Qed.
Lemma default_line : ~ bad_line is_uppercase (`"//- /main.move").
Proof.
  intros [[_ H]|[(r & H) _]].
  - apply (H (`" /main.move")). reflexivity.
  - discriminate H.
Qed.

(** C64, refuted as documented: a text with a file in it describes that file.
    No text describes any file: parsing panics if a line is bad, and otherwise
    returns nothing. *)
Theorem C64_texts_describe_files_refuted t u ls :
  trim_indent t = Ok u -> lines_with_ends u ls ->
  (fixture_parse is_uppercase t = Ok [] /\ Forall (fun l => ~ bad_line is_uppercase l) ls) \/
  (exists w, fixture_parse is_uppercase t = Panic w /\ exists l, In l ls /\ bad_line is_uppercase l).
Proof using.
  intros T Ls. apply lines_unique in Ls. subst ls. unfold fixture_parse. rewrite T. cbn [bind].
  set (d := if contains u meta_mark then [] else [`"//- /main.move"]).
  destruct (parse_lines_spec (d ++ split_inclusive u)) as [[H F]|(w & H & l & In_ & B)].
  - left. split; [exact H|]. apply Forall_app in F. exact (proj2 F).
  - right. exists w. split; [exact H|]. exists l. split; [|exact B].
    apply in_app_or in In_. destruct In_ as [X|X]; [|exact X]. exfalso. unfold d in X.
    destruct (contains u meta_mark); [destruct X|]. destruct X as [<-|[]]. exact (default_line B).
Qed.
Lemma fixture_parse_nothing t es : fixture_parse is_uppercase t = Ok es -> es = [].
Proof.
  unfold fixture_parse. destruct (trim_indent t) as [u|w|]; try discriminate. cbn [bind].
  match goal with |- parse_lines _ ?l _ = _ -> _ => destruct (parse_lines_spec l) as [[H _]|(w & H & _)] end;
    rewrite H; congruence.
Qed.
Lemma change_fixture_nothing t f : change_fixture_parse is_uppercase t = Ok f ->
  f = {| cx_position := None; cx_files := []; cx_change := {| dc_roots := Some [{| sr_library := false; sr_files := file_set_default |}]; dc_files := [] |} |}.
Proof.
  unfold change_fixture_parse. destruct (fixture_parse is_uppercase t) as [es|w|] eqn:E; try discriminate.
  apply fixture_parse_nothing in E. subst es. cbn. intros H. injection H as <-. reflexivity.
Qed.

(** C64. So the functions for tests with files cannot succeed, and the others
    make an empty database. *)
Theorem C64_what_tests_get t :
  (forall d, with_single_file is_uppercase t <> Ok d) /\
  (forall d, with_range_or_offset is_uppercase t <> Ok d) /\
  (forall d, with_position is_uppercase t <> Ok d) /\
  (forall d, with_range is_uppercase t <> Ok d) /\
  (forall db files, with_many_files is_uppercase t = Ok (db, files) -> files = [] /\ described [] db [] None) /\
  (forall db, with_files is_uppercase t = Ok db -> described [] db [] None).
Proof using.
  assert (W : forall db files, with_many_files is_uppercase t = Ok (db, files) -> files = [] /\ described [] db [] None).
  { intros db files H. unfold with_many_files in H. destruct (change_fixture_parse is_uppercase t) as [f|w|] eqn:E; try discriminate H.
    apply change_fixture_nothing in E. subst f. cbn [bind cx_change cx_position cx_files] in H.
    match type of H with (let! db := ?c in _) = _ => destruct c as [db'|w|] eqn:A; try discriminate H end.
    cbn [bind assert_] in H. injection H as <- <-. split; [reflexivity|].
    apply (C64_entries_make_the_database []); [reflexivity|constructor|].
    unfold database_of, change_fixture_of. cbn [fx_loop bind cx_change cx_files cx_position].
    change (fx_close fx_start) with [{| sr_library := false; sr_files := file_set_default |}]. cbn [fx_changes fx_start].
    rewrite A. reflexivity. }
  assert (R : forall d, with_range_or_offset is_uppercase t <> Ok d).
  { intros d H. unfold with_range_or_offset in H. destruct (change_fixture_parse is_uppercase t) as [f|w|] eqn:E; try discriminate H.
    apply change_fixture_nothing in E. subst f. cbn [bind cx_change cx_position cx_files] in H.
    match type of H with (let! db := ?c in _) = _ => destruct c as [db'|w|] eqn:A; try discriminate H end. }
  split; [|split; [exact R|split; [|split; [|split; [exact W|]]]]].
  - intros d H. unfold with_single_file in H. destruct (change_fixture_parse is_uppercase t) as [f|w|] eqn:E; try discriminate H.
    apply change_fixture_nothing in E. subst f. cbn [bind cx_change cx_position cx_files] in H.
    match type of H with (let! db := ?c in _) = _ => destruct c as [db'|w|] eqn:A; try discriminate H end.
  - intros d H. unfold with_position in H. destruct (with_range_or_offset is_uppercase t) as [x|w|] eqn:E; try discriminate H.
    exact (R x eq_refl).
  - intros d H. unfold with_range in H. destruct (with_range_or_offset is_uppercase t) as [x|w|] eqn:E; try discriminate H.
    exact (R x eq_refl).
  - intros db H. unfold with_files in H. destruct (with_many_files is_uppercase t) as [[d fs]|w|] eqn:E; try discriminate H.
    cbn in H. injection H as <-. exact (proj2 (W _ _ eq_refl)).
Qed.
End Text.
Print Assumptions C64_texts_describe_files_refuted.
Print Assumptions C64_what_tests_get.

(** The hypotheses are met. *)
Definition sample_entries : list fixture :=
  [Fixture (`"/a.move") (`"module $0M {}") None [] None;
   Fixture (`"/b.move") (`"\$0") (Some (`"b")) [`"c"] (Some (`"library"))].
Example C64_sample :
  exists db, database_of sample_entries = Ok (db, [0; 1], Some (0, inr 7)) /\
    acceptable sample_entries /\
    file_text db 0 = Ok (`"module M {}") /\ file_text db 1 = Ok (`"$0") /\
    file_source_root db 1 = Ok 1.
Proof.
  eexists. split; [reflexivity|]. split.
  - apply C64_entries_accepted_iff; [reflexivity|repeat (apply Forall_cons; [reflexivity|]); apply Forall_nil|].
    eexists. reflexivity.
  - repeat split.
Qed.
Example C64_sample_text :
  fixture_parse (fun c => (65 <=? c) && (c <=? 90)) (`"//- /a.move" ++ [10] ++ `"module M {}") = Ok [] /\
  (exists w, fixture_parse (fun c => (65 <=? c) && (c <=? 90)) (`"// todo: x") = Panic w) /\
  trim_indent (`"//- /a.move" ++ [10] ++ `"module M {}") = Ok (`"//- /a.move" ++ [10] ++ `"module M {}") /\
  lines_with_ends (`"//- /a.move" ++ [10] ++ `"module M {}") [`"//- /a.move" ++ [10]; `"module M {}"].
Proof.
  split; [reflexivity|]. split; [eexists; reflexivity|]. split; [reflexivity|].
  exact (split_inclusive_lines (`"//- /a.move" ++ [10] ++ `"module M {}")).
Qed.
