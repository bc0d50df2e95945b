(** Property C63: documents and their URLs.  See FileUrlSpec.v for what a URL
    leads to ([leads_to]) and how the server writes one ([canonical]).

    [escapes] is the set of characters below 128 that the url library escapes
    in a segment; the theorems hold for every set with '%' and '/' in it. *)
From Coq Require Import String.
From Verif Require Import Base BaseProofs Utf8 Vfs VfsPath PathSpec PathProofs AbsPath AbsPathSpec AbsPathProofs FileUrl FileUrlSpec FileUrlProofs.
Local Open Scope N_scope.

Definition all_bytes (s : bytes) : Prop := Forall (fun c => c < 256) s.

Lemma decode_bytes s : all_bytes s -> all_bytes (percent_decode s).
Proof.
  unfold all_bytes. intros B. assert (D : decodes s (percent_decode s)) by (apply decodes_spec; reflexivity).
  induction D as [|s x r t E D IH|c r t E D IH].
  - constructor.
  - destruct E as [a b h l r Ha Hb]. apply hexadecimal_lt in Ha, Hb.
    inversion B as [|? ? _ B1]; subst. inversion B1 as [|? ? _ B2]; subst. inversion B2 as [|? ? _ B3]; subst.
    constructor; [lia|]. apply IH. exact B3.
  - inversion B; subst. constructor; auto.
Qed.
Lemma abs_path_bytes u p : all_bytes (u_path u) -> abs_path u = Ok (Some p) -> all_bytes p /\ is_absolute p = true.
Proof.
  intros B H. split.
  - rewrite abs_path_total in H. injection H as H. rewrite to_file_path_spec in H.
    assert (X : exists segs, path_segments u = Some segs /\ p = file_url_segments_to_pathbuf segs).
    { destruct (u_host u) as [h|]; [destruct (text_eqb h _); [|discriminate H]|];
        (destruct (path_segments u) as [segs|]; [|discriminate H]; cbn in H; injection H as <-; eauto). }
    destruct X as (segs & S & ->). apply path_segments_spec in S. destruct S as (_ & _ & S).
    rewrite S in B. inversion B as [|? ? _ B']; subst. clear H B S.
    assert (F : Forall all_bytes segs).
    { clear -B'. induction segs as [|s l IH]; [constructor|].
      destruct l as [|x l]; [constructor; [exact B'|constructor]|].
      cbn [unsplit] in B'. apply Forall_app in B'. destruct B' as [B1 B2]. inversion B2; subst.
      constructor; [exact B1|]. apply IH. assumption. }
    assert (G : all_bytes (flat_map (fun s => cSlash :: percent_decode s) segs)).
    { clear -F. induction F as [|s l H F IH]; [constructor|]. cbn [flat_map]. apply Forall_app. split; [|exact IH].
      constructor; [unfold cSlash; lia|]. apply decode_bytes. exact H. }
    unfold file_url_segments_to_pathbuf. destruct (rev _) as [|b [|a [|x r]]]; try exact G.
    destruct (_ && _); [|exact G]. apply Forall_app. split; [exact G|].
    constructor; [unfold cSlash; lia|constructor].
  - unfold abs_path in H. destruct (to_file_path u) as [q|]; [|discriminate H].
    unfold abs_path_buf in H. destruct (is_absolute q) eqn:A; [|discriminate H].
    cbn in H. injection H as <-. exact A.
Qed.

Lemma Forall_walkf (P : bytes -> Prop) d l : Forall P d -> Forall P l -> Forall P (walkf d l).
Proof.
  intros D L. revert d D. induction L as [|s l S L IH]; intros d D; [exact D|]. cbn [walkf]. apply IH.
  destruct (idle s); [exact D|]. destruct (comp_parse s); try (apply Forall_app; split; [exact D|constructor; [exact S|constructor]]).
  apply Forall_removelast. exact D.
Qed.
Lemma split_bytes p : all_bytes p -> Forall all_bytes (split_slash p).
Proof.
  intros B. destruct (split_slash_spec p) as (_ & _ & U). rewrite <- U in B. clear U.
  induction (split_slash p) as [|s l IH]; [constructor|]. destruct l as [|x l]; [constructor; [exact B|constructor]|].
  cbn [unsplit] in B. apply Forall_app in B. destruct B as [B1 B2]. inversion B2; subst. constructor; [exact B1|]. apply IH. assumption.
Qed.
(** The names on the way to a file are names. *)
Lemma vfs_path_names u ns : all_bytes (u_path u) -> vfs_path u = Ok (Some (Real ns)) -> Forall file_name ns.
Proof.
  intros B H. unfold vfs_path in H. destruct (abs_path u) as [[p|]| |] eqn:E; [|discriminate H..]. cbn [bind option_map] in H.
  injection H as <-. destruct (abs_path_bytes u p B E) as [Bp Ap]. apply rooted_iff in Ap.
  rewrite (path_names_stored p Ap), path_names_ws. unfold ws. rewrite walkf_filter.
  assert (N : Forall name (walkf [] (split_slash p))) by (apply walkf_names; [apply split_slash_spec|constructor]).
  assert (A : Forall all_bytes (walkf [] (split_slash p))) by (apply Forall_walkf; [constructor|apply split_bytes; exact Bp]).
  rewrite Forall_forall in *. intros x Hx. split; [exact (N x Hx)|exact (A x Hx)].
Qed.

(** C63. Every URL either means no file or the one its decoded path leads to,
    and looking never panics. *)
Theorem C63_which_file u :
  (exists found, vfs_path u = Ok found) /\
  (forall p, vfs_path u = Ok (Some p) <-> exists ns, p = Real ns /\ leads_to u ns).
Proof.
  split; [|intros p; apply vfs_path_spec].
  unfold vfs_path. rewrite abs_path_total. cbn [bind]. eauto.
Qed.
Print Assumptions C63_which_file.
(** C63. URLs that lead to one file are one document. *)
Theorem C63_one_file_one_document u v :
  (exists ns, leads_to u ns /\ leads_to v ns) <->
  (exists p, vfs_path u = Ok (Some p) /\ vfs_path v = Ok (Some p)).
Proof.
  split.
  - intros (ns & A & B). exists (Real ns). split; apply vfs_path_spec; eauto.
  - intros (p & A & B). apply vfs_path_spec in A, B. destruct A as (ns & -> & A), B as (ms & E & B). injection E as <-. eauto.
Qed.
Print Assumptions C63_one_file_one_document.

Section C63.
Context (escapes : N -> bool) (escapes_percent : escapes 37 = true) (escapes_slash : escapes 47 = true).

(** C63. Every file has exactly one URL the server writes for it, and that URL
    leads back to the file. *)
Theorem C63_files_have_urls ns : Forall file_name ns ->
  exists u, url_from_abs_path escapes (spelling ns) = Ok u /\ canonical escapes u ns /\
            leads_to u ns /\ vfs_path u = Ok (Some (Real ns)).
Proof using escapes_percent escapes_slash.
  intros F.
  assert (X : exists u, url_from_abs_path escapes (spelling ns) = Ok u).
  { unfold url_from_abs_path, from_file_path. rewrite (proj1 (rooted_iff _) (spelling_rooted ns)). eexists; reflexivity. }
  destruct X as (u & E). pose proof (proj1 (url_from_spelling escapes ns u F) E) as C.
  exists u. split; [exact E|]. split; [exact C|].
  assert (L : leads_to u ns).
  { destruct C as (_ & Hh & _ & _ & segs & W & Hp).
    apply (leads_to_written escapes escapes_percent escapes_slash u _ segs); auto. }
  split; [exact L|]. apply vfs_path_spec. eauto.
Qed.

(** C63. Different files have different URLs. *)
Theorem C63_urls_tell_files_apart ns ms u : Forall file_name ns -> Forall file_name ms ->
  url_from_abs_path escapes (spelling ns) = Ok u -> url_from_abs_path escapes (spelling ms) = Ok u -> ns = ms.
Proof using escapes_percent escapes_slash.
  intros Fn Fm Hp Hq.
  destruct (C63_files_have_urls ns Fn) as (v & E & _ & _ & F). rewrite Hp in E. injection E as <-.
  destruct (C63_files_have_urls ms Fm) as (w & E & _ & _ & G). rewrite Hq in E. injection E as <-.
  congruence.
Qed.

(** C63. What the server sends about a document that was opened under the URL
    [u] is sent under a URL that leads to the same file. *)
Theorem C63_answers_lead_to_the_document u ns :
  all_bytes (u_path u) -> vfs_path u = Ok (Some (Real ns)) ->
  exists v, url_from_abs_path escapes (spelling ns) = Ok v /\
            (forall ms, leads_to v ms <-> leads_to u ms).
Proof using escapes_percent escapes_slash.
  intros B H. destruct (C63_files_have_urls ns (vfs_path_names u ns B H)) as (v & E & _ & L & _). exists v. split; [exact E|].
  apply vfs_path_spec in H. destruct H as (ns' & X & M). injection X as <-.
  intros ms. split; intros K.
  - rewrite <- (leads_to_unique _ _ _ L K). exact M.
  - rewrite <- (leads_to_unique _ _ _ M K). exact L.
Qed.

(** C63. The server uses the very URL under which the document was opened
    exactly if that URL is written the server's way. *)
Theorem C63_answers_use_the_same_url_iff u ns :
  all_bytes (u_path u) -> vfs_path u = Ok (Some (Real ns)) ->
  (url_from_abs_path escapes (spelling ns) = Ok u <->
   exists ms, Forall file_name ms /\ canonical escapes u ms).
Proof using escapes_percent escapes_slash.
  intros B H. pose proof (vfs_path_names u ns B H) as F.
  rewrite (url_from_spelling escapes ns u F). split; [eauto|].
  intros (ms & Fm & C).
  assert (L : leads_to u ms).
  { destruct C as (_ & Hh & _ & _ & segs & W & Hp).
    apply (leads_to_written escapes escapes_percent escapes_slash u ms segs); auto. }
  assert (X : vfs_path u = Ok (Some (Real ms))) by (apply vfs_path_spec; eauto).
  rewrite H in X. injection X as ->. exact C.
Qed.
End C63.
Print Assumptions C63_files_have_urls.
Print Assumptions C63_urls_tell_files_apart.
Print Assumptions C63_answers_lead_to_the_document.
Print Assumptions C63_answers_use_the_same_url_iff.

(** C63, for the characters that the url crate escapes: every file has a URL
    that leads back to it and to no other file. *)
Theorem C63_urls_as_shipped ns : Forall file_name ns ->
  exists u, url_from_abs_path path_segment_set (spelling ns) = Ok u /\
    (forall ms, leads_to u ms <-> ms = ns) /\
    (forall ms, Forall file_name ms -> url_from_abs_path path_segment_set (spelling ms) = Ok u -> ms = ns).
Proof.
  intros F. destruct (C63_files_have_urls path_segment_set eq_refl eq_refl ns F) as (u & E & _ & L & V).
  exists u. split; [exact E|]. split.
  - intros ms. split; [|intros ->; exact L]. intros M.
    assert (X : vfs_path u = Ok (Some (Real ms))) by (apply (proj2 (C63_which_file u)); eauto).
    congruence.
  - intros ms G X. exact (C63_urls_tell_files_apart path_segment_set eq_refl eq_refl ms ns u G F X E).
Qed.
Print Assumptions C63_urls_as_shipped.

(** C63, refuted as a user would state it: messages about a document carry the
    URL under which it was opened.  [file:///a%40b.move], as some editors write
    it, comes back as [file:///a@b.move]. *)
Theorem C63_answers_use_the_same_url_refuted :
  exists u ns v, vfs_path u = Ok (Some (Real ns)) /\ u_scheme u = `"file" /\
    url_from_abs_path path_segment_set (spelling ns) = Ok v /\ u <> v.
Proof.
  exists (sample_url (`"file") (`"/a%40b.move")), [`"a@b.move"], (sample_url (`"file") (`"/a@b.move")).
  repeat split. intros X. discriminate X.
Qed.
Print Assumptions C63_answers_use_the_same_url_refuted.

(** C63, refuted: a document that is not a file is not taken for one.  The
    scheme is not looked at, so that [git:/a.move?HEAD] is the file /a.move. *)
Theorem C63_other_schemes_are_kept_apart_refuted :
  exists u v, u_scheme u = `"git" /\ u_scheme v = `"file" /\ vfs_path u = vfs_path v /\
    vfs_path u = Ok (Some (Real [`"a.move"])).
Proof.
  exists (Url (`"git") None (`"/a.move") (Some (`"HEAD")) None), (sample_url (`"file") (`"/a.move")).
  repeat split.
Qed.
Print Assumptions C63_other_schemes_are_kept_apart_refuted.

(** The hypotheses are met.  The path of the second URL goes up a directory. *)
Example C63_sample :
  path_segment_set 37 = true /\ path_segment_set 47 = true /\
  url_from_abs_path path_segment_set (`"/dir/a b") = Ok (sample_url (`"file") (`"/dir/a%20b")) /\
  vfs_path (sample_url (`"file") (`"/x%2F..//dir//a%20b")) = Ok (Some (Real [`"dir"; `"a b"])) /\
  all_bytes (`"/x%2F..//dir//a%20b") /\
  leads_to (sample_url (`"file") (`"/x%2F..//dir//a%20b")) [`"dir"; `"a b"].
Proof.
  split; [reflexivity|]. split; [reflexivity|]. split; [reflexivity|].
  assert (X : vfs_path (sample_url (`"file") (`"/x%2F..//dir//a%20b")) = Ok (Some (Real [`"dir"; `"a b"]))) by reflexivity.
  split; [exact X|]. split; [unfold all_bytes; cbn; repeat (apply Forall_cons; [lia|]); apply Forall_nil|].
  apply vfs_path_spec in X. destruct X as (ns & X & L). injection X as <-. exact L.
Qed.
Example C63_sample_canonical :
  canonical path_segment_set (sample_url (`"file") (`"/dir/a%20b")) [`"dir"; `"a b"] /\
  Forall file_name [`"dir"; `"a b"].
Proof.
  destruct C63_sample as (_ & _ & E & V & B & _).
  assert (F : Forall file_name [`"dir"; `"a b"]) by exact (vfs_path_names (sample_url (`"file") (`"/x%2F..//dir//a%20b")) _ B V).
  split; [exact (proj1 (url_from_spelling path_segment_set [`"dir"; `"a b"] _ F) E)|exact F].
Qed.

(** ** The URLs of the server model

    Server.v identifies a URL with the file it leads to.  That loses nothing
    the main loop can see. *)
From Verif Require Server.
Definition server_url (u : url) : Server.url :=
  match vfs_path u with
  | Ok (Some (Real ns)) => Server.UFile ns
  | _ => Server.UOther (u_path u)
  end.
Lemma server_url_path u : vfs_path u = Ok (Server.vfs_path (server_url u)).
Proof.
  destruct (C63_which_file u) as [[found E] _]. unfold server_url. rewrite E.
  destruct found as [p|]; [|reflexivity].
  apply vfs_path_spec in E. destruct E as (ns & -> & _). reflexivity.
Qed.
(** The URL sent for the file with the names [ns] is [Server.UFile ns] again. *)
Lemma server_url_published escapes ns u :
  escapes 37 = true -> escapes 47 = true -> Forall file_name ns ->
  url_from_abs_path escapes (spelling ns) = Ok u -> server_url u = Server.UFile ns.
Proof.
  intros H1 H2 F E. destruct (C63_files_have_urls escapes H1 H2 ns F) as (v & G & _ & _ & V).
  rewrite E in G. injection G as <-. unfold server_url. rewrite V. reflexivity.
Qed.
