From Coq Require Import String.
From Verif Require Import Base BaseProofs Utf8 Vfs VfsPath PathSpec PathProofs AbsPath AbsPathSpec AbsPathProofs FileUrl FileUrlSpec.
Local Open Scope N_scope.

(** ** Names of a path *)

Lemma comp_text_of s : flat_map comp_text (comp_of s) = if idle s then [] else [s].
Proof.
  destruct s as [|a [|b [|c r]]]; try reflexivity; cbn [comp_of idle].
  - unfold cDot. destruct (a =? 46); reflexivity.
  - unfold cDot. destruct (N.eqb_spec a 46); destruct (N.eqb_spec b 46); subst; reflexivity.
Qed.
Lemma path_names_filter p : path_names p = filter (fun s => negb (idle s)) (split_slash p).
Proof.
  unfold path_names, components. rewrite flat_map_app.
  assert (E : flat_map comp_text (match p with c :: _ => if c =? cSlash then [RootDir] else [] | [] => [] end) = [])
    by (destruct p as [|c p]; [reflexivity|]; destruct (c =? cSlash); reflexivity).
  rewrite E. cbn [app]. clear E.
  induction (split_slash p) as [|s l IH]; [reflexivity|].
  cbn [flat_map filter]. rewrite flat_map_app, comp_text_of, IH. destruct (idle s); reflexivity.
Qed.
Lemma filter_concat {A} (f : A -> bool) l : filter f (concat l) = concat (map (filter f) l).
Proof. induction l as [|x l IH]; [reflexivity|]. cbn. rewrite filter_app, IH. reflexivity. Qed.
Lemma split_slashes l :
  split_slash (flat_map (fun s => cSlash :: s) l) = match l with [] => [[]] | _ => [] :: concat (map split_slash l) end.
Proof.
  induction l as [|s l IH]; [reflexivity|].
  cbn [flat_map map concat app split_slash]. rewrite N.eqb_refl. f_equal.
  destruct l as [|x l]; [cbn; rewrite !app_nil_r; reflexivity|].
  cbn [flat_map app] in *. rewrite split_slash_app. f_equal.
  cbn [split_slash] in IH. rewrite N.eqb_refl in IH. congruence.
Qed.
Lemma path_names_slashes l :
  path_names (flat_map (fun s => cSlash :: s) l) = filter (fun s => negb (idle s)) (concat (map split_slash l)).
Proof. rewrite path_names_filter, split_slashes. destruct l; reflexivity. Qed.
Lemma path_names_trailing p : path_names (p ++ [cSlash]) = path_names p.
Proof.
  rewrite !path_names_filter, split_slash_app, filter_app. cbn. apply app_nil_r.
Qed.
Lemma segments_to_pathbuf_names l :
  path_names (file_url_segments_to_pathbuf l)
  = filter (fun s => negb (idle s)) (concat (map split_slash (map percent_decode l))).
Proof.
  rewrite <- path_names_slashes.
  assert (E : flat_map (fun s => cSlash :: s) (map percent_decode l) = flat_map (fun s => cSlash :: percent_decode s) l)
    by (induction l as [|s l IH]; [reflexivity|]; cbn; rewrite IH; reflexivity).
  rewrite E. unfold file_url_segments_to_pathbuf.
  destruct (rev _) as [|b [|a [|x r]]]; try reflexivity.
  destruct (_ && _); [apply path_names_trailing|reflexivity].
Qed.
Lemma segments_to_pathbuf_absolute l : l <> [] -> is_absolute (file_url_segments_to_pathbuf l) = true.
Proof.
  intros H. unfold file_url_segments_to_pathbuf.
  destruct l as [|s l]; [contradiction|]. cbn [flat_map app].
  destruct (rev _) as [|b [|a [|x r]]]; try reflexivity.
  destruct (_ && _); reflexivity.
Qed.

(** ** Escapes *)

Lemma hex_digit_spec c d : hex_digit c = Some d <-> hexadecimal c d.
Proof.
  unfold hex_digit, hexadecimal. split.
  - intros H.
    destruct ((48 <=? c) && (c <=? 57)) eqn:A; [|destruct ((65 <=? c) && (c <=? 70)) eqn:B;
      [|destruct ((97 <=? c) && (c <=? 102)) eqn:C; [|discriminate]]]; injection H as <-.
    + assert (X : c = 48 \/ c = 49 \/ c = 50 \/ c = 51 \/ c = 52 \/ c = 53 \/ c = 54 \/ c = 55 \/ c = 56 \/ c = 57) by lia.
      repeat (destruct X as [X|X]; [subst; cbn; tauto|]); subst; cbn; tauto.
    + assert (X : c = 65 \/ c = 66 \/ c = 67 \/ c = 68 \/ c = 69 \/ c = 70) by lia.
      repeat (destruct X as [X|X]; [subst; cbn; tauto|]); subst; cbn; tauto.
    + assert (X : c = 97 \/ c = 98 \/ c = 99 \/ c = 100 \/ c = 101 \/ c = 102) by lia.
      repeat (destruct X as [X|X]; [subst; cbn; tauto|]); subst; cbn; tauto.
  - intros H. repeat (destruct H as [H|H]; [injection H as -> ->; reflexivity|]).
    injection H as -> ->. reflexivity.
Qed.
Lemma escape_spec s x r :
  escape s x r <-> exists a b, s = 37 :: a :: b :: r /\ after_percent_sign a b = Some x.
Proof.
  unfold after_percent_sign. split.
  - intros E. destruct E as [a b h l r Ha Hb].
    apply hex_digit_spec in Ha, Hb. exists a, b. rewrite Ha, Hb. split; [reflexivity|]. f_equal. lia.
  - intros (a & b & -> & H).
    destruct (hex_digit a) as [h|] eqn:Ha; [|discriminate].
    destruct (hex_digit b) as [l|] eqn:Hb; [|discriminate]. injection H as <-.
    apply hex_digit_spec in Ha, Hb.
    replace (h * 16 + l) with (16 * h + l) by lia. constructor; assumption.
Qed.
Lemma decode_escape a b r x : after_percent_sign a b = Some x ->
  percent_decode (37 :: a :: b :: r) = x :: percent_decode r.
Proof. intros H. cbn [percent_decode]. unfold cPercent. rewrite N.eqb_refl, H. reflexivity. Qed.
Lemma decode_plain c r : (forall x r', ~ escape (c :: r) x r') ->
  percent_decode (c :: r) = c :: percent_decode r.
Proof.
  intros H. cbn [percent_decode]. destruct (N.eqb_spec c cPercent) as [->|_]; [|reflexivity].
  destruct r as [|a [|b r']]; try reflexivity.
  destruct (after_percent_sign a b) as [x|] eqn:E; [|reflexivity].
  exfalso. apply (H x r'). apply escape_spec. exists a, b. auto.
Qed.
Lemma decodes_spec s t : decodes s t <-> t = percent_decode s.
Proof.
  split.
  - intros D. induction D as [|s x r t E D IH|c r t E D IH]; [reflexivity| |].
    + apply escape_spec in E. destruct E as (a & b & -> & E). rewrite (decode_escape a b r x E), IH. reflexivity.
    + rewrite (decode_plain c r E), IH. reflexivity.
  - intros ->.
    assert (G : forall n s, (List.length s < n)%nat -> decodes s (percent_decode s)).
    { clear s. induction n as [|n IH]; intros s L; [lia|].
      destruct s as [|c r]; [constructor|].
      assert (D : (exists x r', escape (c :: r) x r') \/ (forall x r', ~ escape (c :: r) x r')).
      { destruct r as [|a [|b r']].
        - right. intros x r' X. apply escape_spec in X. destruct X as (? & ? & X & _). discriminate X.
        - right. intros x r' X. apply escape_spec in X. destruct X as (? & ? & X & _). discriminate X.
        - destruct (N.eqb_spec c 37) as [->|N].
          + destruct (after_percent_sign a b) as [x|] eqn:E.
            * left. exists x, r'. apply escape_spec. exists a, b. auto.
            * right. intros x r'' X. apply escape_spec in X. destruct X as (a' & b' & X & Y).
              injection X as -> -> ->. congruence.
          + right. intros x r'' X. apply escape_spec in X. destruct X as (a' & b' & X & Y).
            injection X as -> _ _ _. apply N. reflexivity. }
      destruct D as [(x & r' & E)|E].
      - pose proof E as E'. apply escape_spec in E'. destruct E' as (a & b & X & Y).
        injection X as -> ->. rewrite (decode_escape a b r' x Y).
        apply (dec_escape _ x r'); [exact E|]. apply IH. cbn [List.length] in L. lia.
      - rewrite (decode_plain c r E). apply dec_plain; [exact E|]. apply IH. cbn [List.length] in L. lia. }
    apply (G (S (List.length s))). lia.
Qed.

(** ** What a URL leads to *)

Lemma path_segments_spec u segs :
  path_segments u = Some segs <->
  segs <> [] /\ Forall no_slash segs /\ u_path u = cSlash :: unsplit segs.
Proof.
  unfold path_segments. split.
  - destruct (u_path u) as [|c r]; [discriminate|].
    destruct (N.eqb_spec c cSlash) as [->|_]; [|discriminate]. intros H. injection H as <-.
    destruct (split_slash_spec r) as (H1 & H2 & H3). rewrite H3. auto.
  - intros (H1 & H2 & ->). rewrite N.eqb_refl, (split_unsplit segs H1 H2). reflexivity.
Qed.
Lemma path_segments_not_nil u : path_segments u <> Some [].
Proof. intros H. apply path_segments_spec in H. destruct H as [H _]. contradiction. Qed.

Lemma parts_unique decoded parts :
  Forall2 (fun d ps => ps <> [] /\ Forall no_slash ps /\ d = unsplit ps) decoded parts <->
  parts = map split_slash decoded.
Proof.
  split.
  - intros F. induction F as [|d ps ds pss (H1 & H2 & ->) F IH]; [reflexivity|].
    cbn [map]. rewrite (split_unsplit ps H1 H2), IH. reflexivity.
  - intros ->. induction decoded as [|d ds IH]; [constructor|]. cbn [map]. constructor; [|exact IH].
    destruct (split_slash_spec d) as (H1 & H2 & H3). auto.
Qed.
Lemma decoded_unique segs decoded : Forall2 decodes segs decoded <-> decoded = map percent_decode segs.
Proof.
  split.
  - intros F. induction F as [|s d ss ds D F IH]; [reflexivity|].
    apply decodes_spec in D. cbn [map]. congruence.
  - intros ->. induction segs as [|s ss IH]; [constructor|]. cbn [map]. constructor; [|exact IH].
    apply decodes_spec. reflexivity.
Qed.

Lemma to_file_path_spec u :
  to_file_path u =
  match u_host u with
  | None => option_map file_url_segments_to_pathbuf (path_segments u)
  | Some h => if text_eqb h (`"localhost") then option_map file_url_segments_to_pathbuf (path_segments u) else None
  end.
Proof.
  unfold to_file_path. destruct (path_segments u), (u_host u) as [h|]; try reflexivity;
    destruct (text_eqb h _); reflexivity.
Qed.
Lemma abs_path_total u : abs_path u = Ok (to_file_path u).
Proof.
  unfold abs_path. destruct (to_file_path u) as [p|] eqn:E; [|reflexivity].
  rewrite to_file_path_spec in E.
  assert (A : is_absolute p = true).
  { assert (X : option_map file_url_segments_to_pathbuf (path_segments u) = Some p)
      by (destruct (u_host u) as [h|]; [destruct (text_eqb h _); [exact E|discriminate]|exact E]).
    destruct (path_segments u) as [segs|] eqn:S; [|discriminate X]. injection X as <-.
    apply segments_to_pathbuf_absolute. intros ->. apply (path_segments_not_nil u S). }
  unfold abs_path_buf. rewrite A. reflexivity.
Qed.
Lemma path_names_ws p : path_names p = ws p.
Proof. apply path_names_filter. Qed.
Lemma path_names_stored p : rooted p -> path_names (vfs_from p) = walkf [] (path_names p).
Proof.
  intros R. unfold vfs_from. rewrite (normalize_rooted p R), !path_names_ws, ws_spelling.
  - unfold ws. symmetry. apply walkf_filter.
  - apply walkf_names; [apply split_slash_spec|constructor].
Qed.
Lemma stored_names segs : segs <> [] ->
  path_names (vfs_from (file_url_segments_to_pathbuf segs)) = walkf [] (concat (map split_slash (map percent_decode segs))).
Proof.
  intros H. rewrite path_names_stored by (apply rooted_iff, segments_to_pathbuf_absolute; exact H).
  rewrite segments_to_pathbuf_names. apply walkf_filter.
Qed.
Lemma parts_no_slash l : Forall no_slash (concat (map split_slash l)).
Proof.
  induction l as [|s l IH]; [constructor|]. cbn [map concat]. apply Forall_app. split; [apply split_slash_spec|exact IH].
Qed.
Lemma vfs_path_spec u p :
  vfs_path u = Ok (Some p) <-> exists ns, p = Real ns /\ leads_to u ns.
Proof.
  unfold vfs_path. rewrite abs_path_total. cbn [bind]. rewrite to_file_path_spec. split.
  - intros H.
    assert (X : exists segs, path_segments u = Some segs /\
      (u_host u = None \/ u_host u = Some (`"localhost")) /\
      p = Real (path_names (vfs_from (file_url_segments_to_pathbuf segs)))).
    { destruct (u_host u) as [h|].
      - destruct (text_eqb h (`"localhost")) eqn:L; [|discriminate H].
        apply text_eqb_eq in L. subst h. destruct (path_segments u) as [segs|]; [|discriminate H].
        cbn [option_map] in H. injection H as <-. eauto.
      - destruct (path_segments u) as [segs|]; [|discriminate H]. cbn [option_map] in H. injection H as <-. eauto. }
    destruct X as (segs & S & Hh & ->). eexists. split; [reflexivity|].
    apply path_segments_spec in S. destruct S as (S1 & S2 & S3).
    split; [exact Hh|]. exists segs, (map percent_decode segs), (map split_slash (map percent_decode segs)).
    repeat split; auto.
    + apply decoded_unique. reflexivity.
    + apply parts_unique. reflexivity.
    + apply walk_iff; [apply parts_no_slash|]. apply stored_names. exact S1.
  - intros (ns & -> & Hh & segs & decoded & parts & S1 & S2 & S3 & D & P & W).
    apply decoded_unique in D. subst decoded. apply parts_unique in P. subst parts.
    apply walk_iff in W; [|apply parts_no_slash]. subst ns.
    assert (S : path_segments u = Some segs) by (apply path_segments_spec; auto).
    rewrite S. rewrite <- stored_names by exact S1.
    destruct Hh as [->| ->]; [reflexivity|].
    rewrite text_eqb_refl. reflexivity.
Qed.
Lemma leads_to_unique u ns ms : leads_to u ns -> leads_to u ms -> ns = ms.
Proof.
  intros A B. assert (X : vfs_path u = Ok (Some (Real ns))) by (apply vfs_path_spec; eauto).
  assert (Y : vfs_path u = Ok (Some (Real ms))) by (apply vfs_path_spec; eauto). congruence.
Qed.

(** ** The URL of a file *)

Section Written.
Context (escapes : N -> bool).

Lemma upper_hex_spec d : d < 16 -> upper d (upper_hex d).
Proof.
  intros H. unfold upper, upper_hex.
  assert (X : d = 0 \/ d = 1 \/ d = 2 \/ d = 3 \/ d = 4 \/ d = 5 \/ d = 6 \/ d = 7 \/ d = 8 \/ d = 9 \/ d = 10 \/
              d = 11 \/ d = 12 \/ d = 13 \/ d = 14 \/ d = 15) by lia.
  repeat (destruct X as [X|X]; [subst; split; [vm_compute; tauto|vm_compute; intros [A B]; try (apply A; reflexivity); apply B; reflexivity]|]).
  subst. split; [vm_compute; tauto|vm_compute; intros [A B]; apply A; reflexivity].
Qed.
Lemma upper_unique d c : upper d c -> c = upper_hex d /\ d < 16.
Proof.
  intros [H N]. unfold hexadecimal in H.
  repeat (destruct H as [H|H]; [injection H as -> ->; split; [reflexivity|lia]|]) || idtac.
  all: repeat (destruct H as [H|H]; [injection H as -> ->; first [split; [reflexivity|lia] | exfalso; lia]|]).
  injection H as -> ->. exfalso. lia.
Qed.
Lemma hexadecimal_unique c d e : hexadecimal c d -> hexadecimal c e -> d = e.
Proof. rewrite <- !hex_digit_spec. congruence. Qed.

Lemma written_spec n s : Forall (fun c => c < 256) n -> (written escapes n s <-> s = percent_encode escapes n).
Proof.
  intros B. split.
  - intros W. induction W as [|c n s P E W IH|c h l x y n s P E X Y W IH]; [reflexivity| |]; inversion B; subst.
    + cbn [percent_encode flat_map]. unfold percent_encode in *. cbn [flat_map].
      replace (128 <=? c) with false by lia. rewrite E. cbn. rewrite <- (IH H2). reflexivity.
    + unfold percent_encode in *. cbn [flat_map].
      apply upper_unique in X, Y. destruct X as [-> X], Y as [-> Y].
      replace ((128 <=? 16 * h + l) || escapes (16 * h + l)) with true
        by (symmetry; apply orb_true_iff; destruct P as [P|P]; [left; lia|right; exact P]).
      replace ((16 * h + l) / 16) with h by (apply (N.div_unique _ _ h l); lia).
      replace ((16 * h + l) mod 16) with l by (apply (N.mod_unique _ _ h l); lia).
      cbn. rewrite <- (IH H2). reflexivity.
  - intros ->. induction B as [|c n C B IH]; [constructor|].
    unfold percent_encode in *. cbn [flat_map].
    destruct ((128 <=? c) || escapes c) eqn:E; cbn [app].
    + apply (wr_escape _ c (c / 16) (c mod 16)); auto.
      * apply orb_true_iff in E. destruct E as [E|E]; [left; lia|right; exact E].
      * apply N.div_mod. lia.
      * apply upper_hex_spec. apply N.div_lt_upper_bound; lia.
      * apply upper_hex_spec. apply N.mod_lt. lia.
    + apply orb_false_iff in E. destruct E as [E1 E2]. apply wr_plain; auto. lia.
Qed.

Lemma hexadecimal_lt c d : hexadecimal c d -> d < 16.
Proof.
  intros H. unfold hexadecimal in H.
  repeat (destruct H as [H|H]; [injection H as -> ->; lia|]). injection H as -> ->. lia.
Qed.

Context (escapes_percent : escapes 37 = true) (escapes_slash : escapes 47 = true).

Lemma decode_encode n : Forall (fun c => c < 256) n -> percent_decode (percent_encode escapes n) = n.
Proof.
  intros B. induction B as [|c n C B IH]; [reflexivity|].
  unfold percent_encode in *. cbn [flat_map].
  destruct ((128 <=? c) || escapes c) eqn:E; cbn [app].
  - rewrite (decode_escape _ _ _ c).
    + rewrite IH. reflexivity.
    + assert (X : upper (c / 16) (upper_hex (c / 16))) by (apply upper_hex_spec; apply N.div_lt_upper_bound; lia).
      assert (Y : upper (c mod 16) (upper_hex (c mod 16))) by (apply upper_hex_spec; apply N.mod_lt; lia).
      destruct X as [X _], Y as [Y _]. apply hex_digit_spec in X, Y.
      unfold after_percent_sign. rewrite X, Y. f_equal.
      pose proof (N.div_mod c 16). lia.
  - rewrite decode_plain; [rewrite IH; reflexivity|].
    intros x r' X. apply escape_spec in X. destruct X as (a & b & X & _). injection X as -> _.
    rewrite escapes_percent, orb_true_r in E. discriminate E.
Qed.
Lemma encode_no_slash n : Forall (fun c => c < 256) n -> no_slash (percent_encode escapes n).
Proof.
  intros B. unfold no_slash, percent_encode. intros X. apply in_flat_map in X. destruct X as (c & Hc & X).
  rewrite Forall_forall in B. specialize (B c Hc).
  destruct ((128 <=? c) || escapes c) eqn:E.
  - destruct X as [X|[X|[X|[]]]].
    + discriminate X.
    + unfold upper_hex, cSlash in X. destruct (c / 16 <? 10) eqn:F; lia.
    + unfold upper_hex, cSlash in X. destruct (c mod 16 <? 10) eqn:F; lia.
  - destruct X as [X|[]]. unfold cSlash in X. subst c. rewrite escapes_slash, orb_true_r in E. discriminate E.
Qed.

(** canonical form of the path of a URL made from names *)
Lemma slashes_unsplit l : l <> [] -> flat_map (fun s => cSlash :: s) l = cSlash :: unsplit l.
Proof.
  induction l as [|s l IH]; [contradiction|]. intros _. cbn [flat_map app].
  destruct l as [|x l]; [cbn; rewrite app_nil_r; reflexivity|].
  rewrite IH by discriminate. reflexivity.
Qed.
Lemma flat_map_map_slash (f : bytes -> bytes) l :
  flat_map (fun n => cSlash :: f n) l = flat_map (fun s => cSlash :: s) (map f l).
Proof. induction l as [|x l IH]; [reflexivity|]. cbn. rewrite IH. reflexivity. Qed.
Lemma file_url_path p :
  path_to_file_url_segments escapes p = cSlash :: unsplit (map (percent_encode escapes) (path_names p)).
Proof.
  unfold path_to_file_url_segments. destruct (path_names p) as [|n ns] eqn:E; [reflexivity|].
  rewrite flat_map_map_slash, slashes_unsplit by discriminate. reflexivity.
Qed.

Lemma filter_all {A} (f : A -> bool) l : Forall (fun x => f x = true) l -> filter f l = l.
Proof. intros F. induction F as [|x l H F IH]; [reflexivity|]. cbn. rewrite H, IH. reflexivity. Qed.

Lemma leads_to_written u ns segs :
  u_host u = None -> Forall file_name ns -> Forall2 (written escapes) ns segs ->
  u_path u = cSlash :: unsplit segs -> leads_to u ns.
Proof.
  intros Hh Hn W Hp. split; [left; exact Hh|].
  assert (E : segs = map (percent_encode escapes) ns).
  { clear Hp. induction W as [|n s ns ss Wn W IH]; [reflexivity|]. inversion Hn; subst.
    cbn [map]. rewrite <- (IH H2). f_equal. apply written_spec; [apply H1|exact Wn]. }
  subst segs. clear W.
  destruct ns as [|n0 ns0].
  - exists [[]], [[]], [[[]]]. repeat split; try discriminate; auto.
    + constructor; [intros []|constructor].
    + constructor; [constructor|constructor].
    + constructor; [|constructor]. repeat split; [discriminate|]. constructor; [intros []|constructor].
    + apply walk_stay; [reflexivity|constructor].
  - remember (n0 :: ns0) as ns eqn:En.
    exists (map (percent_encode escapes) ns), ns, (map (fun n => [n]) ns).
    repeat split; auto.
    + subst ns. discriminate.
    + apply Forall_forall. intros s Hs. apply in_map_iff in Hs. destruct Hs as (n & <- & Hs).
      rewrite Forall_forall in Hn. apply encode_no_slash. apply (Hn n Hs).
    + clear -Hn escapes_percent escapes_slash. induction Hn as [|n ns Hn F IH]; [constructor|]. cbn [map]. constructor; [|exact IH].
      apply decodes_spec. symmetry. apply decode_encode. apply Hn.
    + clear -Hn. induction Hn as [|n ns Hn F IH]; [constructor|]. cbn [map]. constructor; [|exact IH].
      repeat split; [discriminate|constructor; [apply Hn|constructor]].
    + assert (E : concat (map (fun n : bytes => [n]) ns) = ns)
        by (clear; induction ns as [|x l IH]; [reflexivity|]; cbn; rewrite IH; reflexivity).
      rewrite E. assert (F : Forall name ns) by (eapply Forall_impl; [|exact Hn]; intros x [Hx _]; exact Hx).
      apply walk_iff; [apply name_no_slash; exact F|]. rewrite (walkf_name_list [] ns F). reflexivity.
Qed.

Lemma spelling_names ns : Forall file_name ns -> path_names (spelling ns) = ns.
Proof.
  intros F. rewrite path_names_ws. apply ws_spelling. eapply Forall_impl; [|exact F]. intros x [Hx _]. exact Hx.
Qed.
Lemma url_from_spelling ns u : Forall file_name ns ->
  (url_from_abs_path escapes (spelling ns) = Ok u <-> canonical escapes u ns).
Proof.
  intros F. unfold url_from_abs_path, from_file_path. rewrite (proj1 (rooted_iff _) (spelling_rooted ns)). cbn [unwrap].
  pose proof (spelling_names ns F) as E. split.
  - intros H. injection H as <-. unfold canonical. cbn [u_scheme u_host u_query u_fragment u_path].
    repeat split. exists (map (percent_encode escapes) ns). split; [|rewrite file_url_path, E; reflexivity]. clear E.
    induction F as [|n ns Hn F IH]; [constructor|]. cbn [map]. constructor; [|exact IH].
    apply written_spec; [apply Hn|reflexivity].
  - intros (H1 & H2 & H3 & H4 & segs & W & H5).
    assert (X : segs = map (percent_encode escapes) ns).
    { clear H5 E. induction W as [|n s ns ss Wn W IH]; [reflexivity|]. inversion F as [|? ? Fa Fb]; subst.
      cbn [map]. rewrite <- (IH Fb). f_equal. apply written_spec; [apply Fa|exact Wn]. }
    subst segs. rewrite file_url_path, E. destruct u as [sch ho pa qu fr]. cbn in *. subst. reflexivity.
Qed.
End Written.
