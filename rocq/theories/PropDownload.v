(** Properties C67 to C70: how the editor extension gets its binaries.  The
    histories [h] are any interleaving of any number of calls (in any number of
    windows), network answers, failures, crashes, removals and choices of the
    user; see DownloadSpec.v for what is read off them. *)
From Coq Require Import String.
From Coq Require Import Sorting.Sorted.
From Verif Require Import Base BaseProofs Download DownloadSpec DownloadProofs.
Open Scope N_scope.

(** ** C67.  Binaries are put in place whole. *)

(** A file of the storage is as it was, or has the name of a binary and holds all
    the pieces of one answer that ended, or is a temporary file. *)
Theorem C67_whole_files : forall w h w' os n bytes,
  run w h = Some (w', os) -> jobs w = [] -> fresh_draws (map fst (files w)) h ->
  alookup text_eqb n (files w') = Some bytes ->
  alookup text_eqb n (files w) = Some bytes
  \/ (exists a, a_name a = n /\ delivered h a bytes)
  \/ (exists x, In x (draws h) /\ ends_in n x).
Proof. intros w h w' os n bytes R J F L. exact (inv_files _ _ _ (inv_run _ _ _ _ R J F) n bytes L). Qed.

(** When a call has found its binary in the storage, the file is there, unless
    somebody removes it. *)
Theorem C67_found_is_there : forall w h w' os i c n,
  run w h = Some (w', os) -> jobs w = [] -> fresh_draws (map fst (files w)) h ->
  (nth_error (jobs w') i = Some (Job c (PFound (InStorage n))) \/ nth_error (jobs w') i = Some (Job c (PReady (InStorage n)))) ->
  ~ In (LDelete n) h ->
  exists a bytes, offered h i a /\ a_name a = n /\ alookup text_eqb n (files w') = Some bytes
    /\ (alookup text_eqb n (files w) = Some bytes \/ exists b, a_name b = n /\ delivered h b bytes).
Proof.
  intros w h w' os i c n R J F P ND. pose proof (inv_run _ _ _ _ R J F) as I.
  assert (X : (exists a, offered h i a /\ a_name a = n) /\ (~ In (LDelete n) h -> alookup text_eqb n (files w') <> None)).
  { destruct P as [P|P]; destruct (inv_jobs _ _ _ I _ _ P) as [_ O]; cbn in O; tauto. }
  destruct X as [(a & O & <-) L]. specialize (L ND). destruct (alookup text_eqb (a_name a) (files w')) as [bytes|] eqn:E; [|congruence].
  exists a, bytes. split; [exact O|]. split; [reflexivity|]. split; [reflexivity|].
  destruct (inv_files _ _ _ I _ _ E) as [X|[X|(x & D & X)]]; [auto|auto|]. exfalso.
  destruct F as (_ & _ & F). apply (F (a_name a) x); [|exact D|exact X]. apply in_or_app. right. eapply offered_name; eassumption.
Qed.
(** Other files are not touched. *)
Theorem C67_other_files : forall w h w' os n,
  run w h = Some (w', os) -> jobs w = [] -> fresh_draws (map fst (files w)) h ->
  ~ In n (offered_names h) -> (forall x, In x (draws h) -> ~ ends_in n x) -> ~ In (LDelete n) h ->
  alookup text_eqb n (files w') = alookup text_eqb n (files w).
Proof. exact other_files. Qed.

(** ** C68.  Which binary is used. *)

(** A call that ends well gives the configured path, with the home directory for
    a leading ~/; without one, the file of the first asset for it in the release. *)
Theorem C68_which_binary : forall w h w' os i c l,
  run w h = Some (w', os) -> jobs w = [] -> nth_error (jobs w') i = Some (Job c (PReady l)) ->
  started h i c /\
  match l with
  | AtPath p => c_setting c <> [] /\ expands (c_home c) (c_setting c) p
  | InStorage n => c_setting c = [] /\ exists a, offered h i a /\ a_name a = n
  end.
Proof.
  intros w h w' os i c l R J P. destruct (proj2 (all_run _ _ _ _ R J) _ _ P) as [S O]. split; [exact S|]. destruct l; exact O.
Qed.
(** The network is asked for releases only by calls without a configured path on
    a known platform, and for binaries only by the URL of the offered asset; the
    first time only when there is no such file (or it cannot be looked at), and
    again only when the user says so. *)
Theorem C68_requests : forall w h l w' os o,
  run w (h ++ [l]) = Some (w', os ++ [o]) -> jobs w = [] ->
  (forall tok, In (OApi tok) o ->
     exists i c, started (h ++ [l]) i c /\ c_setting c = [] /\ (exists lbl, label_of (c_platform c) lbl)
       /\ (l = LStart c \/ asked l i)) /\
  (forall url, In (OGet url) o ->
     exists i c a, started h i c /\ c_setting c = [] /\ offered h i a /\ a_url a = url
       /\ ((exists x, l = LStat i true x) \/ asked l i \/
           exists x w1, l = LStat i false x /\ run w h = Some (w1, os) /\ alookup text_eqb (a_name a) (files w1) = None)).
Proof.
  intros w h l w' os o R J. apply run_snoc in R as (w1 & os1 & o1 & R & ST & E). apply app_inj_tail in E as [<- <-].
  pose proof (all_run _ _ _ _ R J) as A. pose proof (all_step _ _ _ _ _ A ST) as B. split.
  - intros tok IN. destruct (step_api _ _ _ _ _ ST IN) as (_ & _ & [(c & -> & S & P)|(i & j & AS & _ & P)]).
    + destruct (proj2 B _ _ P) as [SD [_ L]]. eauto 10.
    + destruct (proj2 B _ _ P) as [SD [S L]]. eauto 10.
  - intros url IN. destruct (step_get _ _ _ _ _ ST IN) as (_ & i & c & p & a & temp & P & _ & U & Q).
    destruct (proj2 A _ _ P) as [SD O]. cbn [j_config j_phase] in *. exists i, c, a. split; [exact SD|].
    assert (X : c_setting c = [] /\ offered h i a) by (destruct Q as [(f & x & _ & -> & _)|[_ [-> | ->]]]; exact O).
    destruct X as [X Y]. split; [exact X|]. split; [exact Y|]. split; [exact U|].
    destruct Q as [([|] & x & -> & _ & N)|[Q _]]; eauto 10.
Qed.

(** ** C69.  Failures can be retried, with the token the user entered. *)

(** Every request for a release carries the stored token: the one the user
    entered last. *)
Theorem C69_token : forall w h l w' os o tok,
  run w (h ++ [l]) = Some (w', os ++ [o]) -> In (OApi tok) o ->
  token_after (token w) (h ++ [l]) tok /\ forall t, token_after (token w) (h ++ [l]) t -> t = tok.
Proof.
  intros w h l w' os o tok R IN. pose proof (token_run _ _ _ _ R) as T.
  apply run_snoc in R as (w1 & os1 & o1 & R & ST & E). apply app_inj_tail in E as [<- <-].
  destruct (step_api _ _ _ _ _ ST IN) as (_ & -> & _). split; [exact T|]. intros t X. eapply token_after_fun; eassumption.
Qed.
(** A call fails only for these reasons: the platform is unknown, the user gave
    up, the release is null or has no asset for it, or the binary does not run. *)
Theorem C69_failures : forall w h w' os i c,
  run w h = Some (w', os) -> jobs w = [] -> nth_error (jobs w') i = Some (Job c PFailed) ->
  (c_setting c = [] /\ forall lbl, ~ label_of (c_platform c) lbl)
  \/ exists before l, history_of i h = before ++ [l]
     /\ ((exists x, l = LChoose i Dismiss x) \/ l = LRelease i (ReleaseIs None)
         \/ (exists assets lbl, l = LRelease i (ReleaseIs (Some assets)) /\ label_of (c_platform c) lbl
                                /\ Forall (fun a => ~ suits (c_binary c) lbl a) assets)
         \/ l = LCheck i false).
Proof. intros w h w' os i c R J P. exact (proj2 (proj2 (all_run _ _ _ _ R J) _ _ P)). Qed.
(** A binary is handed on only after it was run and found to be valid; so is the
    pair of binaries the servers are started with. *)
Lemma ready_step w l w' o i c loc : step w l = Some (w', o) -> nth_error (jobs w') i = Some (Job c (PReady loc)) ->
  l = LCheck i true \/ nth_error (jobs w) i = Some (Job c (PReady loc)).
Proof.
  assert (G : forall k p, p <> PReady loc -> nth_error (set_phase k p (jobs w)) i = Some (Job c (PReady loc)) ->
    nth_error (jobs w) i = Some (Job c (PReady loc))).
  { intros k p N X. destruct (Nat.eq_dec i k) as [->|NE]; [|rewrite set_phase_other in X; assumption].
    destruct (nth_error (jobs w) k) as [j|] eqn:E.
    - rewrite (set_phase_same _ _ _ _ E) in X. congruence.
    - unfold set_phase in X. rewrite E in X. congruence. }
  intros S X. destruct l; cbn [step] in S; unfold start, threw, attempt, goes in S.
  all: repeat match type of S with context [match ?x with _ => _ end] => destruct x eqn:? end; try discriminate S; injection S as <- <-; cbn [jobs] in X.
  all: try (right; exact X); try (right; eapply G; [|exact X]; discriminate).
  all: match goal with
    | X : nth_error (_ ++ [Job _ ?p]) _ = _ |- _ =>
        destruct (Nat.lt_ge_cases i (length (jobs w))) as [L|L];
        [rewrite nth_error_app1 in X by exact L; right; exact X|
         rewrite nth_error_app2 in X by exact L; destruct (i - length (jobs w))%nat as [|[|?]]; cbn in X; discriminate X]
    | |- _ => idtac
    end.
  match goal with |- LCheck ?k _ = _ \/ _ => destruct (Nat.eq_dec i k) as [->|NE]; [left; reflexivity|] end.
  right. rewrite set_phase_other in X by exact NE. exact X.
Qed.
Theorem C69_only_checked : forall w h w' os i c p setting dove server,
  run w h = Some (w', os) -> jobs w = [] -> nth_error (jobs w') i = Some (Job c p) -> bootstrap setting p = Some (dove, server) ->
  In (LCheck i true) h.
Proof.
  intros w h w' os i c p setting dove server R J P B.
  assert (X : exists loc, p = PReady loc) by (destruct p; try discriminate B; eauto). destruct X as (loc & ->). clear B.
  revert w' os P R. induction h as [|l h IH] using rev_ind; intros w' os P R.
  - cbn in R. injection R as <- <-. rewrite J in P. destruct i; discriminate P.
  - apply run_snoc in R as (w1 & os1 & o & R & S & ->). apply in_or_app.
    destruct (ready_step _ _ _ _ _ _ _ S P) as [->|Q]; [right; left; reflexivity|left; eapply IH; eassumption].
Qed.
(** Whatever has happened, a call that has neither failed nor been killed can
    still end well, by answers to it and choices in its dialogs alone; and then the
    binary it found is handed on. *)
Theorem C69_can_end_well : forall w h w' os i c p,
  run w h = Some (w', os) -> jobs w = [] -> nth_error (jobs w') i = Some (Job c p) -> p <> PFailed -> p <> PKilled ->
  exists h2 w2 os2 l, Forall (fun l => about i l = true) h2 /\ run w' h2 = Some (w2, os2)
    /\ nth_error (jobs w2) i = Some (Job c (PReady l))
    /\ forall setting, exists server, bootstrap setting (PReady l) = Some (l, server).
Proof.
  intros w h w' os i c p R J P N1 N2. destruct (finish_any i c [] h w' p) as (h2 & w2 & os2 & l & A & B & C); auto.
  - exact (proj2 (proj2 (all_run _ _ _ _ R J) _ _ P)).
  - exists h2, w2, os2, l. split; [exact A|]. split; [exact B|]. split; [exact C|]. intros setting. eexists. reflexivity.
Qed.

(** ** C70.  The progress shown adds up. *)
Theorem C70_progress : forall total chunks, total <> 0 -> total_of chunks <= total ->
  let rs := reports total 0 0 chunks in
  StronglySorted N.lt (map fst rs)
  /\ Forall (fun r => 0 < fst r <= 100 /\ (0 < snd r)%Z) rs
  /\ sum_of (map snd rs) = Z.of_N (last (map fst rs) 0)
  /\ nearest_percent (last (map fst rs) 0) (total_of chunks) total.
Proof.
  intros total chunks T L rs.
  assert (Z0 : percentage 0 total = 0) by (unfold percentage; rewrite N.mul_0_r; apply N.div_small; lia).
  pose proof (reports_spec total chunks T 0) as H. cbv zeta in H. rewrite !Z0, !N.add_0_l in H. fold rs in H.
  destruct H as (A & B & C & D). split; [exact A|]. split; [|split].
  - eapply Forall_impl; [|exact B]. cbv beta. intros r X. pose proof (percentage_max (total_of chunks) total T L). lia.
  - rewrite D. lia.
  - rewrite D. apply percentage_spec. exact T.
Qed.
(** It is complete exactly when half a percent or less is missing. *)
Theorem C70_hundred : forall total chunks, total <> 0 -> total_of chunks <= total ->
  (last (map fst (reports total 0 0 chunks)) 0 = 100 <-> 200 * (total - total_of chunks) <= total).
Proof.
  intros total chunks T L. pose proof (C70_progress total chunks T L) as (_ & _ & _ & [A B]).
  set (p := last _ _) in *. split; intros H.
  - rewrite H in A. lia.
  - apply (nearest_unique p 100 (total_of chunks) total T); [split; assumption|]. split; lia.
Qed.

(** ** Cases *)
Definition linux : config := Config [] (`"/home/me") (`"linux") (`"dove").
Definition the_asset : asset := Asset (`"dove-linux.bin") (`"https://x/1").
Definition release : release_answer :=
  ReleaseIs (Some [Asset (`"dove-darwin") (`"https://x/0"); Asset (`"resources-linux") []; the_asset; Asset (`"dove-linux") []]).
Definition hexa : text := `"0123456789".
Definition hexb : text := `"012345678a".
Definition empty_world : world := World [] None [].
(** Two windows download at once; one crashes in the middle of it, the other
    ends well. *)
Definition two_windows : list label :=
  [LStart linux; LStart linux; LRelease 0 release; LRelease 1 release; LStat 0 false hexa; LStat 1 false hexb;
   LResponse 0 (BodyFollows (Some (Some 4))); LResponse 1 (BodyFollows (Some (Some 4)));
   LChunk 0 [1; 2]; LChunk 1 [1; 2]; LKill 0; LChunk 1 [3; 4]; LEnd 1; LRename 1 true; LCheck 1 true].
Lemma not_suffix (n x : text) : length x = 10%nat -> skipn (length n - 10) n <> x -> ~ ends_in n x.
Proof.
  intros L N [a ->]. apply N. rewrite app_length, L. replace (length a + 10 - 10)%nat with (length a) by lia.
  rewrite skipn_app, skipn_all, Nat.sub_diag. reflexivity.
Qed.
Lemma hex_check x : length x = 10%nat -> forallb (fun c => ((48 <=? c) && (c <=? 57)) || ((97 <=? c) && (c <=? 102))) x = true -> hex_number x.
Proof. intros L F. split; [exact L|]. apply Forall_forall. intros c I. rewrite forallb_forall in F. specialize (F c I). clear - F. lia. Qed.
Example two_windows_fresh : fresh_draws [] two_windows.
Proof.
  split; [|split].
  - constructor; [intros [H|[]]; vm_compute in H; discriminate|]. constructor; [intros []|constructor].
  - constructor; [|constructor; [|constructor]]; apply hex_check; reflexivity.
  - intros n x A B. cbn in B. cbn in A.
    destruct B as [<-|[<-|[]]]; (apply not_suffix; [reflexivity|]);
      repeat (destruct A as [<-|A]; [cbn; discriminate|]); destruct A.
Qed.
Example two_windows_end : exists w os,
  run empty_world two_windows = Some (w, os)
  /\ alookup text_eqb (`"dove-linux.bin") (files w) = Some [1; 2; 3; 4]
  /\ alookup text_eqb (`"dove-linux0123456789") (files w) = Some [1; 2]
  /\ alookup text_eqb (`"dove-linux012345678a") (files w) = None
  /\ nth_error (jobs w) 1 = Some (Job linux (PReady (InStorage (`"dove-linux.bin"))))
  /\ os = [[OApi None]; [OApi None]; []; []; [OGet (`"https://x/1")]; [OGet (`"https://x/1")]; []; []; []; []; []; []; []; []; []].
Proof. eexists _, _. split; [reflexivity|]. repeat split. Qed.
Example two_windows_delivered : delivered two_windows the_asset [1; 2; 3; 4].
Proof.
  exists 1%nat, [LRelease 1 release; LStat 1 false hexb], (Some (Some 4)), [[1; 2]; [3; 4]], [LCheck 1 true].
  split; [reflexivity|]. split; [discriminate|]. split; [reflexivity|]. exists linux, (`"linux"),
    [Asset (`"dove-darwin") (`"https://x/0"); Asset (`"resources-linux") []; the_asset; Asset (`"dove-linux") []].
  split; [exists [LStart linux]; eexists; split; reflexivity|]. split; [constructor|].
  split; [right; right; right; left; reflexivity|]. apply find_asset_spec. reflexivity.
Qed.
(** A failing request: the user enters a token and the release is asked for with
    it; the connection breaks, the user tries again and then gives up. *)
Definition failing : list label :=
  [LStart linux; LRelease 0 NoRelease; LChoose 0 UpdateToken []; LInput 0 (Some (`"secret")) hexa; LRelease 0 release;
   LStat 0 false hexb; LResponse 0 (BodyFollows None); LStreamFails 0; LChoose 0 Retry (`"012345678b");
   LResponse 0 NoBody; LChoose 0 Dismiss []].
Example failing_end : exists w os,
  run empty_world failing = Some (w, os) /\ token w = Some (`"secret")
  /\ nth_error (jobs w) 0 = Some (Job linux PFailed)
  /\ os = [[OApi None]; [ORetryDialog]; [OTokenBox None]; [OApi (Some (`"secret"))]; []; [OGet (`"https://x/1")]; [];
           [ORetryDialog]; [OGet (`"https://x/1")]; [ORetryDialog]; []].
Proof. eexists _, _. split; [reflexivity|]. repeat split. Qed.
Example configured : exists w os,
  run empty_world [LStart (Config (`"~/bin/dove") (`"/home/me") (`"freebsd") (`"dove")); LCheck 0 true] = Some (w, os)
  /\ option_map j_phase (nth_error (jobs w) 0) = Some (PReady (AtPath (`"/home/me/bin/dove"))) /\ os = [[]; []].
Proof. eexists _, _. split; [reflexivity|]. split; reflexivity. Qed.
Example progress_shown : reports 1000 0 0 [4; 1; 500; 0; 495] = [(1, 1%Z); (51, 50%Z); (100, 49%Z)].
Proof. reflexivity. Qed.

(** ** What does not hold *)

(** A Windows user gets the binary of another platform when it comes first:
    "darwin" mentions "win". *)
Theorem C68_right_platform_refuted : exists h w' os a c,
  run empty_world h = Some (w', os) /\ nth_error (jobs w') 0 = Some (Job c (PReady (InStorage (a_name a))))
  /\ c_platform c = `"win32" /\ mentions (a_name a) (`"darwin").
Proof.
  set (c := Config [] [] (`"win32") (`"dove")).
  exists [LStart c; LRelease 0 (ReleaseIs (Some [Asset (`"dove-darwin") []; Asset (`"dove-win32.exe") []]));
          LStat 0 false hexa; LResponse 0 (BodyFollows (Some (Some 1))); LChunk 0 [7]; LEnd 0; LRename 0 true; LCheck 0 true].
  eexists _, _, (Asset (`"dove-darwin") []), c. split; [reflexivity|]. split; [reflexivity|]. split; [reflexivity|].
  exists (`"dove-"), []. reflexivity.
Qed.
(** A file that is there is used even though the release offers another one of
    that name, and a broken one is not replaced: each call fails. *)
Theorem C68_latest_release_refuted : exists h w' os,
  run (World [(a_name the_asset, [0])] None []) h = Some (w', os)
  /\ nth_error (jobs w') 0 = Some (Job linux PFailed) /\ nth_error (jobs w') 1 = Some (Job linux PFailed)
  /\ offered h 0 the_asset /\ offered h 1 the_asset
  /\ Forall (fun o => forall url, ~ In (OGet url) o) os /\ alookup text_eqb (a_name the_asset) (files w') = Some [0].
Proof.
  exists [LStart linux; LRelease 0 release; LStat 0 false hexa; LCheck 0 false;
          LStart linux; LRelease 1 release; LStat 1 false hexb; LCheck 1 false].
  eexists _, _. split; [reflexivity|]. split; [reflexivity|]. split; [reflexivity|].
  assert (F : first_suitable (`"dove") (`"linux")
     [Asset (`"dove-darwin") (`"https://x/0"); Asset (`"resources-linux") []; the_asset; Asset (`"dove-linux") []] the_asset)
    by (apply find_asset_spec; reflexivity).
  split; [|split; [|split]].
  - exists linux, (`"linux"). eexists. split; [exists []; eexists; split; reflexivity|]. split; [constructor|]. split; [right; left; reflexivity|exact F].
  - exists linux, (`"linux"). eexists. split; [do 2 eexists; split; [|];
      [instantiate (2 := [LStart linux; LRelease 0 release; LStat 0 false hexa; LCheck 0 false]); reflexivity|reflexivity]|].
    split; [constructor|]. split; [do 5 right; left; reflexivity|exact F].
  - repeat constructor; cbn; intros url X; intuition discriminate.
  - reflexivity.
Qed.
(** What is received need not have the announced length. *)
Theorem C67_announced_length_refuted : exists h w' os n bytes announced,
  run empty_world h = Some (w', os) /\ In (LResponse 0 (BodyFollows (Some (Some announced)))) h
  /\ delivered h the_asset bytes /\ a_name the_asset = n /\ alookup text_eqb n (files w') = Some bytes
  /\ N.of_nat (length bytes) <> announced.
Proof.
  set (h := [LStart linux; LRelease 0 release; LStat 0 false hexa; LResponse 0 (BodyFollows (Some (Some 4))); LChunk 0 [7]; LEnd 0; LRename 0 true]).
  exists h. eexists _, _, _, [7], 4. split; [reflexivity|]. split; [do 3 right; left; reflexivity|]. split; [|split; [|split]].
  - exists 0%nat, [LRelease 0 release; LStat 0 false hexa], (Some (Some 4)), [[7]], [].
    split; [reflexivity|]. split; [discriminate|]. split; [reflexivity|]. exists linux, (`"linux"). eexists.
    split; [exists []; eexists; split; reflexivity|]. split; [constructor|]. split; [right; left; reflexivity|].
    apply find_asset_spec. reflexivity.
  - reflexivity.
  - reflexivity.
  - cbn. discriminate.
Qed.
(** The setting for the language server has no effect. *)
Theorem C68_language_server_setting_refuted : forall s1 s2 dove, bootstrap s1 dove = bootstrap s2 dove.
Proof. reflexivity. Qed.

Print Assumptions C67_whole_files.
Print Assumptions C67_found_is_there.
Print Assumptions C67_other_files.
Print Assumptions C67_announced_length_refuted.
Print Assumptions C68_which_binary.
Print Assumptions C68_requests.
Print Assumptions C68_right_platform_refuted.
Print Assumptions C68_latest_release_refuted.
Print Assumptions C68_language_server_setting_refuted.
Print Assumptions C69_token.
Print Assumptions C69_failures.
Print Assumptions C69_only_checked.
Print Assumptions C69_can_end_well.
Print Assumptions C70_progress.
Print Assumptions C70_hundred.
