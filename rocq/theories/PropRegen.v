(** Property C78: regenerating the generated files. *)
From Coq Require Import String.
From Verif Require Import Base BaseProofs Fixture Regen RegenSpec RegenProofs.
Local Open Scope N_scope.

(** ** C78.  A run passes exactly if every file has the lines that would be
    written to it, and then it writes nothing. *)
Theorem C78_passes : forall writable d files d',
  generate writable d files = (d', Passed) <-> d' = d /\ forall job, In job files -> up_to_date d job.
Proof.
  intros w d fs d'. rewrite <- Forall_forall. destruct (run_cases w d fs) as [[E F]|(a & f & c & b & -> & F & N & E)]; rewrite E.
  - split; [intros X; injection X as <-; auto|intros [-> _]; reflexivity].
  - split; [destruct (w f); discriminate|]. intros [_ G]. apply Forall_app in G as [_ G]. inversion G; subst. contradiction.
Qed.

(** Any other run ends at the first file that is not up to date.  If it can be
    written it then has exactly the text given, and no other file is changed. *)
Theorem C78_first_stale_file : forall writable d files d' e,
  generate writable d files = (d', e) -> e <> Passed ->
  exists before file contents after, files = before ++ (file, contents) :: after /\
    (forall job, In job before -> up_to_date d job) /\ ~ up_to_date d (file, contents) /\
    (forall g, g <> file -> d' g = d g) /\
    ((e = NotUpToDate /\ writable file = true /\ d' file = Some contents) \/ (e = CannotWrite /\ writable file = false /\ d' file = d file)).
Proof.
  intros w d fs d' e E Ne. destruct (run_cases w d fs) as [[G F]|(a & f & c & b & -> & F & N & G)]; rewrite G in E.
  - injection E as _ <-. contradiction.
  - rewrite Forall_forall in F. exists a, f, c, b. split; [reflexivity|]. split; [exact F|]. split; [exact N|].
    destruct (w f); injection E as <- <-.
    + split; [intros g H; apply put_other; exact H|]. left. split; [reflexivity|]. split; [reflexivity|apply put_same].
    + split; [reflexivity|]. right. auto.
Qed.

(** So if [k] files are not up to date, exactly the next [k] runs fail, and the
    runs after that pass. *)
Theorem C78_settles : forall writable d files k n,
  NoDup (map fst files) -> (forall file, In file (map fst files) -> writable file = true) -> stale d files k ->
  snd (generate writable (again writable n d files) files) = if (n <? k)%nat then NotUpToDate else Passed.
Proof. intros w d fs k n ND W S. exact (settle w k d fs n ND W S). Qed.

(** There is always such a number, and it is at most the number of files. *)
Theorem C78_settles_soon : forall writable d files,
  NoDup (map fst files) -> (forall file, In file (map fst files) -> writable file = true) ->
  generate writable (again writable (List.length files) d files) files = (again writable (List.length files) d files, Passed).
Proof.
  intros w d fs ND W. destruct (stale_total d fs) as (k & S & L). pose proof (settle w k d fs (List.length fs) ND W S) as E.
  replace (List.length fs <? k)%nat with false in E by (symmetry; apply Nat.ltb_ge; exact L).
  destruct (generate w (again w (List.length fs) d fs) fs) as [d' e] eqn:G. cbn [snd] in E. subst e.
  pose proof (proj1 (C78_passes _ _ _ _) G) as [-> _]. reflexivity.
Qed.

(** The paths of generate_all.rs are three.  The first file has other line ends,
    the second is outdated and the third is missing: two runs fail. *)
Definition wanted : list (text * text) := combine generated_paths [[97; 10; 98; 10]; [99; 10]; [100; 10]].
Definition found : disk := fun f =>
  if text_eqb f (nth 0 generated_paths []) then Some [97; 13; 10; 98; 10]
  else if text_eqb f (nth 1 generated_paths []) then Some [99; 13; 13; 10] else None.
Example regenerated : NoDup (map fst wanted) /\ stale found wanted 2 /\
  map (fun n => snd (generate (fun _ => true) (again (fun _ => true) n found wanted) wanted)) [0; 1; 2; 3]%nat
    = [NotUpToDate; NotUpToDate; Passed; Passed] /\
  map (again (fun _ => true) 3 found wanted) generated_paths = [Some [97; 13; 10; 98; 10]; Some [99; 10]; Some [100; 10]].
Proof.
  assert (S : forall j a, normalize_newlines a = normalize_newlines (snd j) -> found (fst j) = Some a -> up_to_date found j).
  { intros j a E F. exists a. split; [exact F|]. apply same_lines_ok. exact E. }
  split; [|split; [|split; vm_compute; reflexivity]].
  - unfold wanted, generated_paths. cbn [combine map fst]. repeat constructor; cbn [In]; intros H; repeat destruct H as [H|H]; try discriminate H; exact H.
  - apply stale_fine; [apply (S _ [97; 13; 10; 98; 10]); vm_compute; reflexivity|]. apply stale_one.
    + intros (o & E & L). apply same_lines_ok in L. vm_compute in E. injection E as <-. vm_compute in L. discriminate L.
    + apply stale_one; [|constructor]. intros (o & E & _). vm_compute in E. discriminate E.
Qed.
Print Assumptions C78_passes.
Print Assumptions C78_first_stale_file.
Print Assumptions C78_settles.
Print Assumptions C78_settles_soon.
