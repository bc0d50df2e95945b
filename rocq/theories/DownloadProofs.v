(** Proofs about Download.v *)
From Coq Require Import String.
From Coq Require Import Sorting.Sorted.
From Verif Require Import Base BaseProofs Download DownloadSpec.
Open Scope N_scope.

(** ** Runs *)
Lemma run_app w h1 h2 w' os : run w (h1 ++ h2) = Some (w', os) ->
  exists w1 os1 os2, run w h1 = Some (w1, os1) /\ run w1 h2 = Some (w', os2) /\ os = os1 ++ os2.
Proof.
  revert w os. induction h1 as [|l h1 IH]; intros w os H.
  - exists w, [], os. auto.
  - cbn [app run] in H. destruct (step w l) as [[w1 o]|] eqn:E; [|discriminate].
    destruct (run w1 (h1 ++ h2)) as [[w2 os2]|] eqn:F; [|discriminate]. injection H as <- <-.
    destruct (IH _ _ F) as (w3 & os3 & os4 & A & B & ->). exists w3, (o :: os3), os4.
    cbn [run]. rewrite E, A. auto.
Qed.
Lemma run_snoc w h l w' os : run w (h ++ [l]) = Some (w', os) ->
  exists w1 os1 o, run w h = Some (w1, os1) /\ step w1 l = Some (w', o) /\ os = os1 ++ [o].
Proof.
  intros H. apply run_app in H as (w1 & os1 & os2 & A & B & ->). cbn [run] in B.
  destruct (step w1 l) as [[w2 o]|] eqn:E; [|discriminate]. injection B as <- <-. eauto 10.
Qed.
Lemma run_length w h w' os : run w h = Some (w', os) -> length os = length h.
Proof.
  revert w w' os. induction h as [|l h IH]; intros w w' os H; cbn [run] in H.
  - injection H as <- <-. reflexivity.
  - destruct (step w l) as [[w1 o]|]; [|discriminate]. destruct (run w1 h) as [[w2 os2]|] eqn:F; [|discriminate].
    injection H as <- <-. cbn. f_equal. eauto.
Qed.

(** ** Jobs *)
Lemma set_phase_same i p js j : nth_error js i = Some j -> nth_error (set_phase i p js) i = Some (Job (j_config j) p).
Proof.
  intros H. unfold set_phase. rewrite H. apply nth_error_split in H as (a & b & -> & <-).
  rewrite firstn_app, Nat.sub_diag, firstn_all, app_nil_r. cbn [firstn].
  rewrite nth_error_app2 by lia. rewrite Nat.sub_diag. reflexivity.
Qed.
Lemma set_phase_other i p js k : k <> i -> nth_error (set_phase i p js) k = nth_error js k.
Proof.
  intros N. unfold set_phase. destruct (nth_error js i) as [j|] eqn:H; [|reflexivity].
  apply nth_error_split in H as (a & b & -> & <-).
  rewrite firstn_app, Nat.sub_diag, firstn_all, app_nil_r. cbn [firstn].
  replace (skipn (S (length a)) (a ++ j :: b)) with b.
  - destruct (Nat.lt_ge_cases k (length a)).
    + rewrite !nth_error_app1 by lia. reflexivity.
    + rewrite !nth_error_app2 by lia. destruct (k - length a)%nat eqn:E; [lia|]. reflexivity.
  - replace (S (length a)) with (length (a ++ [j])) by (rewrite app_length; cbn; lia).
    replace (a ++ j :: b) with ((a ++ [j]) ++ b) by (rewrite <- app_assoc; reflexivity).
    rewrite skipn_app, skipn_all, Nat.sub_diag. reflexivity.
Qed.
Lemma set_phase_length i p js : length (set_phase i p js) = length js.
Proof.
  unfold set_phase. destruct (nth_error js i) as [j|] eqn:H; [|reflexivity].
  apply nth_error_split in H as (a & b & -> & <-). rewrite app_length. cbn [length].
  rewrite firstn_length, skipn_length, app_length. cbn [length]. lia.
Qed.

(** ** Names *)
Lemma last_dot_spec t a b : last_dot t = Some (a, b) -> t = a ++ b /\ exists r, b = 46 :: r.
Proof.
  revert a b. induction t as [|c t IH]; intros a b H; [discriminate|]. cbn [last_dot] in H.
  destruct (last_dot t) as [[a' b']|] eqn:E.
  - injection H as <- <-. destruct (IH _ _ eq_refl) as [-> R]. auto.
  - destruct (c =? 46) eqn:C; [|discriminate]. injection H as <- <-. split; [reflexivity|].
    apply N.eqb_eq in C as ->. eauto.
Qed.
(** The temporary file is never the destination *)
Lemma temp_not_dest a hex : hex_number hex -> temp_name a hex <> a_name a.
Proof.
  intros [L F] H. unfold temp_name, path_name in H. destruct (a_name a) as [|c n] eqn:E.
  - cbn in H. subst. discriminate.
  - assert (T : forall t, t ++ hex <> t).
    { intros t X. apply (f_equal (@length _)) in X. rewrite app_length, L in X. lia. }
    destruct (text_eqb (c :: n) [46; 46]); [exact (T _ H)|].
    destruct (last_dot (c :: n)) as [[[|x s] b]|] eqn:D; [exact (T _ H)| |exact (T _ H)].
    apply last_dot_spec in D as [D [r ->]]. rewrite D in H. apply app_inv_head in H. subst.
    inversion F; subst. lia.
Qed.
Lemma app_same_suffix (a b x y : text) : length x = length y -> a ++ x = b ++ y -> a = b /\ x = y.
Proof.
  intros L H. pose proof (f_equal (@length _) H) as E. rewrite !app_length in E.
  assert (LA : length a = length b) by lia. clear E L. revert b LA H.
  induction a as [|c a IH]; intros [|d b] LA H; cbn in *; try discriminate; auto.
  injection H as <- H. destruct (IH b) as [-> ->]; [lia|exact H|auto].
Qed.

Lemma platform_label_spec p lbl : platform_label p = Some lbl <-> label_of p lbl.
Proof.
  unfold platform_label. split.
  - intros H. destruct (text_eqb p (`"win32")) eqn:E.
    { apply text_eqb_eq in E as ->. injection H as <-. constructor. }
    destruct (text_eqb p (`"linux")) eqn:F.
    { apply text_eqb_eq in F as ->. injection H as <-. constructor. }
    destruct (text_eqb p (`"darwin")) eqn:G; [|discriminate].
    apply text_eqb_eq in G as ->. injection H as <-. constructor.
  - destruct 1; reflexivity.
Qed.
Lemma includes_spec t p : includes t p = true <-> mentions t p.
Proof.
  unfold mentions. induction t as [|c t IH]; cbn [includes].
  - rewrite orb_false_r. rewrite starts_with_spec. split; intros H.
    + destruct H as [r H]. exists [], r. exact H.
    + destruct H as (a & b & H). destruct a; [|discriminate]. exists b. exact H.
  - rewrite orb_true_iff, starts_with_spec, IH. split; intros H.
    + destruct H as [[r H]|(a & b & ->)]; [exists [], r; exact H|exists (c :: a), b; reflexivity].
    + destruct H as ([|d a] & b & H); [left; exists b; exact H|]. injection H as -> ->. right. eauto.
Qed.
Lemma suits_spec binary lbl a : starts_with (a_name a) binary && includes (a_name a) lbl = true <-> suits binary lbl a.
Proof. unfold suits. rewrite andb_true_iff, starts_with_spec, includes_spec. reflexivity. Qed.
Lemma find_asset_spec binary lbl l a : find_asset binary lbl l = Some a <-> first_suitable binary lbl l a.
Proof.
  unfold find_asset, first_suitable. induction l as [|b l IH]; cbn [find].
  - split; [discriminate|]. intros (x & y & H & _). destruct x; discriminate.
  - destruct (_ && _) eqn:E.
    + apply suits_spec in E. split.
      * intros H. injection H as ->. exists [], l. auto.
      * intros ([|c x] & y & H & S & F); injection H as -> H; [reflexivity|]. inversion F; subst. contradiction.
    + rewrite IH. split.
      * intros (x & y & -> & S & F). exists (b :: x), y. split; [reflexivity|]. split; [exact S|]. constructor; [|exact F].
        intros X. apply suits_spec in X. rewrite X in E. discriminate.
      * intros ([|c x] & y & H & S & F); injection H as -> H.
        -- apply suits_spec in S. rewrite S in E. discriminate.
        -- inversion F; subst. exists x, y. auto.
Qed.
Lemma first_suitable_in binary lbl l a : first_suitable binary lbl l a -> In a l.
Proof. intros (x & y & -> & _). apply in_or_app. right. left. reflexivity. Qed.

(** ** Histories *)
Definition drawn_by (h : list label) (i : nat) (x : text) : Prop :=
  exists l, In l h /\ about i l = true
    /\ match l with LStat _ _ y | LChoose _ _ y | LInput _ _ y => y = x | _ => False end.
Lemma drawn_draws h i x : drawn_by h i x -> In x (draws h).
Proof.
  intros (l & L & _ & X). unfold draws. apply in_concat. exists [x]. split; [|left; reflexivity].
  apply in_map_iff. exists l. split; [|exact L]. destruct l; try contradiction; subst; reflexivity.
Qed.
Lemma about_fun i j l : about i l = true -> about j l = true -> i = j.
Proof. destruct l; cbn; try discriminate; intros A B; apply Nat.eqb_eq in A, B; congruence. Qed.
Lemma NoDup_app_parts (A : Type) (a b : list A) : NoDup (a ++ b) ->
  NoDup a /\ NoDup b /\ forall x, In x a -> In x b -> False.
Proof.
  induction a as [|c a IH]; cbn [app]; intros N.
  - split; [constructor|]. split; [exact N|]. intros x [].
  - inversion N as [|? ? C N']; subst. destruct (IH N') as (P & Q & R). split; [|split].
    + constructor; [|exact P]. intros X. apply C. apply in_or_app. auto.
    + exact Q.
    + intros x [->|X] Y; [|eauto]. apply C. apply in_or_app. auto.
Qed.
Lemma draws_app h1 h2 : draws (h1 ++ h2) = draws h1 ++ draws h2.
Proof. unfold draws. rewrite map_app, concat_app. reflexivity. Qed.
Lemma drawn_unique h i j x : NoDup (draws h) -> drawn_by h i x -> drawn_by h j x -> i = j.
Proof.
  intros N (l & L & A & X) (m & M & B & Y). apply in_split in L as (h1 & h2 & ->).
  apply in_app_or in M as [M|[M|M]]; [| subst m; eapply about_fun; eassumption|]; exfalso.
  - assert (D : In x (draws h1)) by (apply drawn_draws with j; exists m; auto).
    assert (D2 : In x (draws (l :: h2))) by (apply drawn_draws with i; exists l; cbn; auto).
    rewrite draws_app in N. apply NoDup_app_parts in N as (_ & _ & N). eauto.
  - assert (D : In x (draws h2)) by (apply drawn_draws with j; exists m; auto).
    assert (D2 : In x (draws [l])) by (apply drawn_draws with i; exists l; cbn; auto).
    rewrite draws_app in N. apply NoDup_app_parts in N as (_ & N & _).
    change (l :: h2) with ([l] ++ h2) in N. rewrite draws_app in N. apply NoDup_app_parts in N as (_ & _ & N). eauto.
Qed.
Lemma drawn_snoc h l i x : drawn_by h i x -> drawn_by (h ++ [l]) i x.
Proof. intros (m & M & R). exists m. split; [apply in_or_app; auto|exact R]. Qed.

Lemma started_snoc h l i c : started h i c -> started (h ++ [l]) i c.
Proof. intros (a & b & -> & L). exists a, (b ++ [l]). split; [rewrite <- app_assoc; reflexivity|exact L]. Qed.
Lemma offered_snoc h l i a : offered h i a -> offered (h ++ [l]) i a.
Proof.
  intros (c & lbl & s & A & B & C & D). exists c, lbl, s.
  split; [auto using started_snoc|]. split; [exact B|]. split; [apply in_or_app; auto|exact D].
Qed.
Lemma history_snoc i h l : history_of i (h ++ [l]) = history_of i h ++ (if about i l then [l] else []).
Proof. unfold history_of. rewrite filter_app. cbn [filter]. destruct (about i l); reflexivity. Qed.
Lemma history_other i h l : about i l = false -> history_of i (h ++ [l]) = history_of i h.
Proof. intros H. rewrite history_snoc, H. apply app_nil_r. Qed.
Lemma delivered_snoc h l a b : delivered h a b -> delivered (h ++ [l]) a b.
Proof.
  intros (i & before & len & pieces & after & H & LEN & B & O).
  exists i, before, len, pieces, (after ++ (if about i l then [l] else [])).
  rewrite history_snoc, H. split; [|auto using offered_snoc].
  rewrite <- !app_assoc. cbn [app]. f_equal. f_equal. rewrite <- app_assoc. reflexivity.
Qed.
Lemma offered_name h i a : offered h i a -> In (a_name a) (offered_names h).
Proof.
  intros (c & lbl & s & _ & _ & L & F). unfold offered_names. apply in_concat. exists (map a_name s).
  split; [apply in_map_iff; eexists; split; [|exact L]; reflexivity|]. apply in_map. eapply first_suitable_in; eassumption.
Qed.
Lemma fresh_snoc names h l : fresh_draws names (h ++ [l]) -> fresh_draws names h.
Proof.
  unfold fresh_draws, draws, offered_names. rewrite !map_app, !concat_app. intros (N & F & D). split; [|split].
  - apply NoDup_app_parts in N. tauto.
  - apply Forall_app in F. tauto.
  - intros n x A B. apply D; [|apply in_or_app; auto]. apply in_app_or in A as [A|A]; apply in_or_app; [auto|].
    right. apply in_or_app. auto.
Qed.

(** ** The invariant *)
Definition starts (h : list label) : nat := length (filter (fun l => match l with LStart _ => true | _ => false end) h).
Definition part_file (h : list label) (fs : amap (K := text) (V := list N)) (i : nat) (a : asset) (temp : text) (tail : list label) : Prop :=
  offered h i a /\ (exists x, drawn_by h i x /\ temp = temp_name a x)
  /\ exists before len pieces, history_of i h = before ++ LResponse i (BodyFollows len) :: map (LChunk i) pieces ++ tail
     /\ len <> Some None /\ forall b, alookup text_eqb temp fs = Some b -> b = concat pieces.
Definition phase_ok (h : list label) (fs : amap (K := text) (V := list N)) (i : nat) (c : config) (p : phase) : Prop :=
  match p with
  | PRelease | PDialog SRelease | PBox SRelease => c_setting c = []
  | PStat a | PDialog (SBinary a) | PBox (SBinary a) => c_setting c = [] /\ offered h i a
  | PFetch a temp => c_setting c = [] /\ offered h i a /\ exists x, drawn_by h i x /\ temp = temp_name a x
  | PBody a temp => c_setting c = [] /\ part_file h fs i a temp []
  | PRename a temp => c_setting c = [] /\ part_file h fs i a temp [LEnd i]
  | PFound (AtPath p) | PReady (AtPath p) => c_setting c <> [] /\ expands (c_home c) (c_setting c) p
  | PFound (InStorage n) | PReady (InStorage n) =>
      c_setting c = [] /\ (exists a, offered h i a /\ a_name a = n)
      /\ (~ In (LDelete n) h -> alookup text_eqb n fs <> None)
  | PFailed | PKilled => True
  end.
Record inv (fs0 : amap (K := text) (V := list N)) (h : list label) (w : world) : Prop := {
  inv_starts : length (jobs w) = starts h;
  inv_files : forall n b, alookup text_eqb n (files w) = Some b ->
     alookup text_eqb n fs0 = Some b \/ (exists a, a_name a = n /\ delivered h a b) \/ (exists x, In x (draws h) /\ ends_in n x);
  inv_jobs : forall i j, nth_error (jobs w) i = Some j ->
     started h i (j_config j) /\ phase_ok h (files w) i (j_config j) (j_phase j) }.

Lemma starts_snoc h l : starts (h ++ [l]) = (starts h + match l with LStart _ => 1 | _ => 0 end)%nat.
Proof. unfold starts. rewrite filter_app, app_length. destruct l; reflexivity. Qed.

Lemma phase_ok_frame h l fs fs' k c p : about k l = false ->
  (forall a x b, drawn_by h k x -> alookup text_eqb (temp_name a x) fs' = Some b -> alookup text_eqb (temp_name a x) fs = Some b) ->
  (forall a, offered h k a -> ~ In (LDelete (a_name a)) (h ++ [l]) ->
     alookup text_eqb (a_name a) fs <> None -> alookup text_eqb (a_name a) fs' <> None) ->
  phase_ok h fs k c p -> phase_ok (h ++ [l]) fs' k c p.
Proof.
  intros AB T S. assert (PART : forall a temp tail, part_file h fs k a temp tail -> part_file (h ++ [l]) fs' k a temp tail).
  { intros a temp tail (O & (x & D & ->) & before & len & pieces & H & L & B). split; [auto using offered_snoc|].
    split; [eauto using drawn_snoc|]. exists before, len, pieces. rewrite history_other by exact AB. eauto. }
  assert (STORE : forall n, (exists a, offered h k a /\ a_name a = n) /\ (~ In (LDelete n) h -> alookup text_eqb n fs <> None) ->
     (exists a, offered (h ++ [l]) k a /\ a_name a = n) /\ (~ In (LDelete n) (h ++ [l]) -> alookup text_eqb n fs' <> None)).
  { intros n ((a & O & <-) & B). split; [eauto using offered_snoc|]. intros N. apply S; [exact O|exact N|].
    apply B. intros X. apply N. apply in_or_app. auto. }
  destruct p as [|a|a temp|a temp|a temp|[|a]|[|a]|[q|n]|[q|n]| |]; cbn [phase_ok]; try tauto;
    try (intros (A & B); split; [exact A|]; first [apply PART; exact B | apply STORE; exact B | apply offered_snoc; exact B]).
  intros (A & O & x & D & ->). split; [exact A|]. split; [auto using offered_snoc|]. eauto using drawn_snoc.
Qed.
(** ... when the files do not change *)
Lemma phase_ok_keep h l fs k c p : about k l = false -> phase_ok h fs k c p -> phase_ok (h ++ [l]) fs k c p.
Proof. intros A. apply phase_ok_frame; auto. Qed.

Lemma delivered_end h i a len pieces before : offered h i a -> len <> Some None ->
  history_of i h = before ++ LResponse i (BodyFollows len) :: map (LChunk i) pieces ++ [LEnd i] ->
  delivered (h ++ [LRename i true]) a (concat pieces).
Proof.
  intros O L H. exists i, before, len, pieces, []. split; [|auto using offered_snoc].
  rewrite history_snoc, H. cbn [about]. rewrite Nat.eqb_refl, <- app_assoc. cbn [app].
  rewrite <- app_assoc. reflexivity.
Qed.

Lemma not_temp names h i a k b x : fresh_draws names h -> offered h i b -> drawn_by h k x -> temp_name a x <> a_name b.
Proof.
  intros (_ & _ & F) O D H. apply (F (a_name b) x).
  - apply in_or_app. right. eapply offered_name; eassumption.
  - eapply drawn_draws; eassumption.
  - exists (path_name (a_name a)). symmetry. exact H.
Qed.
Lemma temps_differ names h i k a b x y : fresh_draws names h -> drawn_by h i x -> drawn_by h k y -> i <> k ->
  temp_name a x <> temp_name b y.
Proof.
  intros (N & F & _) D E NE H. apply app_same_suffix in H as [_ ->].
  - apply NE. eapply drawn_unique; eassumption.
  - rewrite Forall_forall in F. apply drawn_draws in D, E. apply F in D, E. destruct D as [-> _], E as [-> _]. reflexivity.
Qed.
Lemma alookup_append n m bytes fs : n <> m -> alookup text_eqb n (append_file m bytes fs) = alookup text_eqb n fs.
Proof.
  intros N. unfold append_file. destruct (alookup text_eqb m fs); [|reflexivity].
  apply alookup_insert_ne; [apply text_eqb_eq|congruence].
Qed.
Lemma alookup_aremove n m (fs : amap (K := text) (V := list N)) b : alookup text_eqb n (aremove text_eqb m fs) = Some b -> alookup text_eqb n fs = Some b.
Proof.
  intros H. destruct (text_eqb m n) eqn:E.
  - apply text_eqb_eq in E as ->. rewrite alookup_remove in H. discriminate.
  - rewrite alookup_remove_ne in H; [exact H|apply text_eqb_eq|]. intros ->. rewrite text_eqb_refl in E. discriminate.
Qed.

(** A step that changes one job and leaves the files *)
Lemma inv_goes fs0 h w l i j p tok : inv fs0 h w -> nth_error (jobs w) i = Some j ->
  (forall k, k <> i -> about k l = false) -> (forall c, l <> LStart c) ->
  phase_ok (h ++ [l]) (files w) i (j_config j) p ->
  inv fs0 (h ++ [l]) (World (files w) tok (set_phase i p (jobs w))).
Proof.
  intros [A B C] J AB NS P. constructor; cbn [files jobs].
  - rewrite set_phase_length, A, starts_snoc. destruct l; try lia. destruct (NS c eq_refl).
  - intros n b H. destruct (B n b H) as [X|[(a & N & D)|(x & D & E)]]; [auto| |].
    + right. left. eauto using delivered_snoc.
    + right. right. exists x. split; [rewrite draws_app; apply in_or_app; auto|exact E].
  - intros k j' H. destruct (Nat.eq_dec k i) as [->|N].
    + rewrite (set_phase_same _ _ _ _ J) in H. injection H as <-. cbn. destruct (C _ _ J). auto using started_snoc.
    + rewrite set_phase_other in H by exact N. destruct (C _ _ H). auto using started_snoc, phase_ok_keep.
Qed.
Lemma about_other i k l : about i l = true -> k <> i -> about k l = false.
Proof. intros A N. destruct (about k l) eqn:E; [|reflexivity]. destruct N. eapply about_fun; eassumption. Qed.

Lemma expand_spec c x r : c_setting c = x :: r ->
  expands (c_home c) (c_setting c)
    (if starts_with (c_setting c) [126; 47] then c_home c ++ drop1 (c_setting c) else c_setting c).
Proof.
  intros _. destruct (starts_with _ _) eqn:E.
  - apply starts_with_spec in E as [rest ->]. exact (expands_home _ rest).
  - apply expands_plain. intros rest H.
    assert (X : starts_with (c_setting c) [126; 47] = true) by (apply starts_with_spec; eauto).
    rewrite X in E. discriminate.
Qed.

Lemma inv_step fs0 h w l w' o : inv fs0 h w -> fresh_draws (map fst fs0) (h ++ [l]) ->
  step w l = Some (w', o) -> inv fs0 (h ++ [l]) w'.
Proof.
  intros I FR ST.
  assert (FRH : fresh_draws (map fst fs0) h) by (eapply fresh_snoc; eassumption).
  (* a step that changes a job only *)
  assert (GO : forall i j p tok, nth_error (jobs w) i = Some j -> about i l = true ->
     phase_ok (h ++ [l]) (files w) i (j_config j) p ->
     inv fs0 (h ++ [l]) (World (files w) tok (set_phase i p (jobs w)))).
  { intros i j p tok J AB P. eapply inv_goes; eauto.
    - intros k N. eapply about_other; eassumption.
    - intros c ->. discriminate. }
  destruct l as [c|i r|i fault hex|i r|i bytes|i|i|i ok|i ch hex|i t hex|i valid|i|name]; cbn [step] in ST;
    try (destruct (nth_error (jobs w) i) as [[c p]|] eqn:J; cbn [option_map j_phase] in ST; [|discriminate];
         destruct (inv_jobs _ _ _ I _ _ J) as [STD OK]; cbn [j_config j_phase] in STD, OK;
         assert (AB : Nat.eqb i i = true) by apply Nat.eqb_refl).
  - (* LStart *)
    injection ST as ST. destruct I as [A B C].
    assert (ADD : forall p, phase_ok (h ++ [LStart c]) (files w) (length (jobs w)) c p ->
       inv fs0 (h ++ [LStart c]) (World (files w) (token w) (jobs w ++ [Job c p]))).
    { intros p P. constructor; cbn [files jobs].
      - rewrite app_length, A, starts_snoc. reflexivity.
      - intros n b H. destruct (B n b H) as [X|[(a & N & D)|(x & D & E)]]; [auto| |].
        + right. left. eauto using delivered_snoc.
        + right. right. exists x. split; [rewrite draws_app; apply in_or_app; auto|exact E].
      - intros k j H. destruct (Nat.lt_ge_cases k (length (jobs w))) as [L|L].
        + rewrite nth_error_app1 in H by exact L. destruct (C _ _ H). auto using started_snoc, phase_ok_keep.
        + rewrite nth_error_app2 in H by exact L. destruct (k - length (jobs w))%nat eqn:E; [|destruct n; discriminate].
          injection H as <-. assert (k = length (jobs w)) as -> by lia. split; [|exact P].
          exists h, []. split; [reflexivity|]. symmetry. exact A. }
    unfold start in ST. destruct (c_setting c) as [|x r] eqn:E.
    + destruct (platform_label (c_platform c)); apply pair_equal_spec in ST as [<- <-]; apply ADD; cbn; auto.
    + apply pair_equal_spec in ST as [<- <-]. apply ADD. cbn [phase_ok].
      split; [congruence|]. rewrite <- E. eapply expand_spec; eassumption.
  - (* LRelease *)
    destruct p; try discriminate. cbn [phase_ok] in OK. destruct r as [|[assets|]].
    + injection ST as <- <-. eapply GO; eauto.
    + destruct (platform_label (c_platform c)) as [lbl|] eqn:L; [|discriminate].
      destruct (find_asset _ _ _) as [a|] eqn:F; injection ST as <- <-; eapply GO; eauto; [|exact Logic.I].
      cbn [phase_ok j_config]. split; [exact OK|]. exists c, lbl, assets.
      split; [auto using started_snoc|]. split; [apply platform_label_spec; exact L|].
      split; [apply in_or_app; right; left; reflexivity|apply find_asset_spec; exact F].
    + injection ST as <- <-. eapply GO; eauto. exact Logic.I.
  - (* LStat *)
    destruct p; try discriminate. destruct OK as [OK O].
    destruct (negb fault && file_exists w (a_name a)) eqn:E; injection ST as <- <-; eapply GO; eauto; cbn [phase_ok j_config].
    + split; [exact OK|]. split; [eauto using offered_snoc|]. intros _. apply andb_true_iff in E as [_ E].
      unfold file_exists in E. destruct (alookup _ _ _); [discriminate|discriminate].
    + split; [exact OK|]. split; [auto using offered_snoc|]. exists hex. split; [|reflexivity].
      exists (LStat i fault hex). split; [apply in_or_app; right; left; reflexivity|]. auto.
  - (* LResponse *)
    destruct p; try discriminate. destruct OK as (OK & O & x & D & ->). set (temp := temp_name a x) in *.
    assert (BODY : forall len, r = BodyFollows len -> len <> Some None -> inv fs0 (h ++ [LResponse i r])
       (World (ainsert text_eqb temp [] (files w)) (token w) (set_phase i (PBody a temp) (jobs w)))).
    { intros len -> LEN. destruct I as [A B C]. constructor; cbn [files jobs].
      - rewrite set_phase_length, A, starts_snoc. lia.
      - intros n b H. destruct (text_eqb temp n) eqn:E.
        + apply text_eqb_eq in E as <-. right. right. exists x. split.
          * rewrite draws_app. apply in_or_app. left. eapply drawn_draws; eassumption.
          * exists (path_name (a_name a)). reflexivity.
        + rewrite alookup_insert_ne in H; [|apply text_eqb_eq|intros ->; rewrite text_eqb_refl in E; discriminate].
          destruct (B n b H) as [X|[(a' & N & D')|(y & D' & E')]]; [auto| |].
          * right. left. eauto using delivered_snoc.
          * right. right. exists y. split; [rewrite draws_app; apply in_or_app; auto|exact E'].
      - intros k j H. destruct (Nat.eq_dec k i) as [->|N].
        + rewrite (set_phase_same _ _ _ _ J) in H. injection H as <-. cbn [j_config j_phase phase_ok].
          split; [auto using started_snoc|]. split; [exact OK|]. split; [auto using offered_snoc|].
          split; [exists x; auto using drawn_snoc|]. exists (history_of i h), len, []. split; [|split; [exact LEN|]].
          * rewrite history_snoc. cbn [about]. rewrite AB. reflexivity.
          * intros b. rewrite alookup_insert by apply text_eqb_eq. cbn. congruence.
        + rewrite set_phase_other in H by exact N. destruct (C _ _ H) as [S P]. split; [auto using started_snoc|].
          eapply phase_ok_frame; [| | |exact P].
          * cbn [about]. apply Nat.eqb_neq. auto.
          * intros a' y b Dy L. rewrite alookup_insert_ne in L; [exact L|apply text_eqb_eq|].
            eapply temps_differ; [exact FRH|eassumption|eassumption|auto].
          * intros a' Oa _ L. rewrite alookup_insert_ne; [exact L|apply text_eqb_eq|].
            eapply not_temp; eassumption. }
    destruct r as [|[[n|]|]]; injection ST as <- <-; try (eapply BODY; [reflexivity|discriminate]);
      eapply GO; eauto; cbn [phase_ok j_config]; auto using offered_snoc.
  - (* LChunk *)
    destruct p; try discriminate. destruct OK as (OK & O & (x & D & ->) & before & len & pieces & H & LEN & F).
    set (temp := temp_name a x) in *. injection ST as <- <-. destruct I as [A B C]. constructor; cbn [files jobs].
    + rewrite A, starts_snoc. lia.
    + intros n b L. destruct (text_eqb n temp) eqn:E.
      * apply text_eqb_eq in E as ->. right. right. exists x. split.
        -- rewrite draws_app. apply in_or_app. left. eapply drawn_draws; eassumption.
        -- exists (path_name (a_name a)). reflexivity.
      * rewrite alookup_append in L by (intros ->; rewrite text_eqb_refl in E; discriminate).
        destruct (B n b L) as [X|[(a' & N & D')|(y & D' & E')]]; [auto| |].
        -- right. left. eauto using delivered_snoc.
        -- right. right. exists y. split; [rewrite draws_app; apply in_or_app; auto|exact E'].
    + intros k j K. destruct (Nat.eq_dec k i) as [->|N].
      * rewrite J in K. injection K as <-. cbn [j_config j_phase phase_ok].
        split; [auto using started_snoc|]. split; [exact OK|]. split; [auto using offered_snoc|].
        split; [exists x; auto using drawn_snoc|]. exists before, len, (pieces ++ [bytes]). split; [|split; [exact LEN|]].
        -- rewrite history_snoc, H. cbn [about]. rewrite AB, map_app, !app_nil_r, <- app_assoc. reflexivity.
        -- intros b L. unfold append_file in L. destruct (alookup text_eqb temp (files w)) as [old|] eqn:T.
           ++ rewrite alookup_insert in L by apply text_eqb_eq. injection L as <-.
              rewrite concat_app. cbn. rewrite app_nil_r. f_equal. apply F. reflexivity.
           ++ rewrite T in L. discriminate.
      * destruct (C _ _ K) as [S P]. split; [auto using started_snoc|].
        eapply phase_ok_frame; [| | |exact P].
        -- cbn [about]. apply Nat.eqb_neq. auto.
        -- intros a' y b Dy L. rewrite alookup_append in L; [exact L|].
           eapply temps_differ; [exact FRH|eassumption|eassumption|auto].
        -- intros a' Oa _ L. rewrite alookup_append; [exact L|]. intros X. symmetry in X. revert X.
           eapply not_temp; eassumption.
  - (* LEnd *)
    destruct p; try discriminate. destruct OK as (OK & O & (x & D & ->) & before & len & pieces & H & LEN & F).
    injection ST as <- <-. eapply GO; eauto. cbn [phase_ok j_config].
    split; [exact OK|]. split; [auto using offered_snoc|]. split; [exists x; auto using drawn_snoc|].
    exists before, len, pieces. split; [|split; [exact LEN|exact F]]. rewrite history_snoc, H. cbn [about].
    rewrite AB, !app_nil_r, <- app_assoc. reflexivity.
  - (* LStreamFails *)
    destruct p; try discriminate. destruct OK as (OK & O & _). injection ST as <- <-.
    eapply GO; eauto. cbn [phase_ok j_config]. auto using offered_snoc.
  - (* LRename *)
    destruct p; try discriminate. destruct OK as (OK & O & (x & D & ->) & before & len & pieces & H & LEN & F).
    set (temp := temp_name a x) in *. destruct ok.
    + destruct (alookup text_eqb temp (files w)) as [bytes|] eqn:T; [|discriminate]. injection ST as <- <-.
      specialize (F _ eq_refl). subst bytes. destruct I as [A B C]. constructor; cbn [files jobs].
      * rewrite set_phase_length, A, starts_snoc. lia.
      * intros n b L. destruct (text_eqb (a_name a) n) eqn:E.
        -- apply text_eqb_eq in E as <-. rewrite alookup_insert in L by apply text_eqb_eq. injection L as <-.
           right. left. exists a. split; [reflexivity|]. eapply delivered_end; eassumption.
        -- rewrite alookup_insert_ne in L; [|apply text_eqb_eq|intros X; rewrite X, text_eqb_refl in E; discriminate].
           apply alookup_aremove in L. destruct (B n b L) as [X|[(a' & N & D')|(y & D' & E')]]; [auto| |].
           ++ right. left. eauto using delivered_snoc.
           ++ right. right. exists y. split; [rewrite draws_app; apply in_or_app; auto|exact E'].
      * intros k j K. destruct (Nat.eq_dec k i) as [->|N].
        -- rewrite (set_phase_same _ _ _ _ J) in K. injection K as <-. cbn [j_config j_phase phase_ok].
           split; [auto using started_snoc|]. split; [exact OK|]. split; [eauto using offered_snoc|].
           intros _. rewrite alookup_insert by apply text_eqb_eq. discriminate.
        -- rewrite set_phase_other in K by exact N. destruct (C _ _ K) as [S P]. split; [auto using started_snoc|].
           eapply phase_ok_frame; [| | |exact P].
           ++ cbn [about]. apply Nat.eqb_neq. auto.
           ++ intros a' y b Dy L. rewrite alookup_insert_ne in L; [apply alookup_aremove in L; exact L|apply text_eqb_eq|].
              intros X. symmetry in X. revert X. eapply not_temp; eassumption.
           ++ intros a' Oa _ L. destruct (text_eqb (a_name a) (a_name a')) eqn:E.
              ** apply text_eqb_eq in E as <-. rewrite alookup_insert by apply text_eqb_eq. discriminate.
              ** rewrite alookup_insert_ne; [|apply text_eqb_eq|intros X; rewrite X, text_eqb_refl in E; discriminate].
                 rewrite alookup_remove_ne; [exact L|apply text_eqb_eq|]. eapply (not_temp _ h k); eassumption.
    + injection ST as <- <-. eapply GO; eauto. cbn [phase_ok j_config]. auto using offered_snoc.
  - (* LChoose *)
    destruct p as [| | | | |st| | | | |]; try discriminate. destruct ch.
    + injection ST as <- <-. eapply GO; eauto. destruct st; cbn [phase_ok j_config] in *; [exact OK|]. destruct OK. auto using offered_snoc.
    + destruct st; injection ST as <- <-; (eapply GO; [eauto|eauto|]; cbn [phase_ok j_config] in * ); [exact OK|]. destruct OK as [OK O].
      split; [exact OK|]. split; [auto using offered_snoc|]. exists hex. split; [|reflexivity].
      exists (LChoose i Retry hex). split; [apply in_or_app; right; left; reflexivity|]. auto.
    + injection ST as <- <-. eapply GO; eauto. exact Logic.I.
  - (* LInput *)
    destruct p as [| | | | | |st| | | |]; try discriminate.
    assert (R : forall tok, inv fs0 (h ++ [LInput i t hex]) (fst (attempt (World (files w) tok (jobs w)) i st hex))).
    { intros tok. destruct st; (eapply GO; [eauto|eauto|]; cbn [phase_ok j_config] in * ); [exact OK|]. destruct OK as [OK O].
      split; [exact OK|]. split; [auto using offered_snoc|]. exists hex. split; [|reflexivity].
      exists (LInput i t hex). split; [apply in_or_app; right; left; reflexivity|]. auto. }
    injection ST as ST. destruct t as [[|d v]|].
    + specialize (R None). rewrite ST in R. exact R.
    + specialize (R (Some (d :: v))). rewrite ST in R. exact R.
    + specialize (R (token w)). destruct w as [fs tk js]; cbn [files token jobs] in *. rewrite ST in R. exact R.
  - (* LCheck *)
    destruct p as [| | | | | | |loc| | |]; try discriminate. injection ST as <- <-. eapply GO; eauto.
    destruct valid; [|exact Logic.I]. destruct loc as [q|n]; [exact OK|]. cbn [phase_ok j_config] in *.
    destruct OK as (OK & (a & O & E) & F). split; [exact OK|]. split; [eauto using offered_snoc|].
    intros N. apply F. intros X. apply N. apply in_or_app. auto.
  - (* LKill *)
    injection ST as <- <-. eapply GO; eauto. exact Logic.I.
  - (* LDelete *)
    injection ST as <- <-. destruct I as [A B C]. constructor; cbn [files jobs].
    + rewrite A, starts_snoc. lia.
    + intros n b L. apply alookup_aremove in L. destruct (B n b L) as [X|[(a' & N & D')|(y & D' & E')]]; [auto| |].
      * right. left. eauto using delivered_snoc.
      * right. right. exists y. split; [rewrite draws_app; apply in_or_app; auto|exact E'].
    + intros k j K. destruct (C _ _ K) as [S P]. split; [auto using started_snoc|].
      eapply phase_ok_frame; [reflexivity| | |exact P].
      * intros a x b _ L. eapply alookup_aremove; eassumption.
      * intros a _ N L. rewrite alookup_remove_ne; [exact L|apply text_eqb_eq|].
        intros ->. apply N. apply in_or_app. right. left. reflexivity.
Qed.
Lemma inv_run w h w' os : run w h = Some (w', os) -> jobs w = [] -> fresh_draws (map fst (files w)) h -> inv (files w) h w'.
Proof.
  intros R J. revert w' os R. induction h as [|l h IH] using rev_ind; intros w' os R F.
  - injection R as <- <-. constructor.
    + rewrite J. reflexivity.
    + auto.
    + intros i j X. rewrite J in X. destruct i; discriminate.
  - apply run_snoc in R as (w1 & os1 & o & R & S & ->). eapply inv_step; [|exact F|exact S].
    eapply IH; [exact R|]. eapply fresh_snoc; eassumption.
Qed.

(** ** What holds without assumptions about the random numbers *)
Definition why_failed (h : list label) (i : nat) (c : config) : Prop :=
  (c_setting c = [] /\ forall lbl, ~ label_of (c_platform c) lbl)
  \/ exists before l, history_of i h = before ++ [l]
     /\ ((exists x, l = LChoose i Dismiss x) \/ l = LRelease i (ReleaseIs None)
         \/ (exists assets lbl, l = LRelease i (ReleaseIs (Some assets)) /\ label_of (c_platform c) lbl
                                /\ Forall (fun a => ~ suits (c_binary c) lbl a) assets)
         \/ l = LCheck i false).
Definition phase_is (h : list label) (i : nat) (c : config) (p : phase) : Prop :=
  match p with
  | PRelease | PDialog SRelease | PBox SRelease => c_setting c = [] /\ exists lbl, label_of (c_platform c) lbl
  | PStat a | PDialog (SBinary a) | PBox (SBinary a) | PFetch a _ | PBody a _ | PRename a _ => c_setting c = [] /\ offered h i a
  | PFound (AtPath p) | PReady (AtPath p) => c_setting c <> [] /\ expands (c_home c) (c_setting c) p
  | PFound (InStorage n) | PReady (InStorage n) => c_setting c = [] /\ exists a, offered h i a /\ a_name a = n
  | PFailed => why_failed h i c
  | PKilled => True
  end.
Definition all_are (h : list label) (w : world) : Prop :=
  length (jobs w) = starts h /\
  forall i j, nth_error (jobs w) i = Some j -> started h i (j_config j) /\ phase_is h i (j_config j) (j_phase j).

Lemma phase_is_keep h l k c p : about k l = false -> phase_is h k c p -> phase_is (h ++ [l]) k c p.
Proof.
  intros AB. destruct p as [|a|a temp|a temp|a temp|[|a]|[|a]|[q|n]|[q|n]| |]; cbn [phase_is]; try tauto;
    try (intros [A B]; split; auto using offered_snoc; fail).
  - intros (A & a & O & E). eauto using offered_snoc.
  - intros (A & a & O & E). eauto using offered_snoc.
  - intros [A|B]; [left; exact A|]. right. rewrite history_other by exact AB. exact B.
Qed.
Lemma find_asset_none binary lbl l : find_asset binary lbl l = None -> Forall (fun a => ~ suits binary lbl a) l.
Proof.
  intros F. apply Forall_forall. intros a I S. apply suits_spec in S.
  pose proof (find_none _ _ F a I) as X. cbv beta in X. congruence.
Qed.
Lemma all_step h w l w' o : all_are h w -> step w l = Some (w', o) -> all_are (h ++ [l]) w'.
Proof.
  intros I ST.
  assert (GO : forall i j p fs tok, nth_error (jobs w) i = Some j -> about i l = true ->
     phase_is (h ++ [l]) i (j_config j) p -> all_are (h ++ [l]) (World fs tok (set_phase i p (jobs w)))).
  { intros i j p fs tok J AB P. destruct I as [A C]. split; cbn [jobs].
    - rewrite set_phase_length, A, starts_snoc. destruct l; try lia. discriminate.
    - intros k j' H. destruct (Nat.eq_dec k i) as [->|N].
      + rewrite (set_phase_same _ _ _ _ J) in H. injection H as <-. cbn. destruct (C _ _ J). auto using started_snoc.
      + rewrite set_phase_other in H by exact N. destruct (C _ _ H). eauto using started_snoc, phase_is_keep, about_other. }
  assert (KEEP : forall fs tok, (forall c, l <> LStart c) ->
     (forall k j, nth_error (jobs w) k = Some j -> about k l = true -> phase_is (h ++ [l]) k (j_config j) (j_phase j)) ->
     all_are (h ++ [l]) (World fs tok (jobs w))).
  { intros fs tok NS P. destruct I as [A C]. split; cbn [jobs].
    - rewrite A, starts_snoc. destruct l; try lia. destruct (NS c eq_refl).
    - intros k j H. destruct (C _ _ H) as [S Q]. split; [auto using started_snoc|].
      destruct (about k l) eqn:AB; [eauto|auto using phase_is_keep]. }
  assert (LAST : forall i c, about i l = true -> 
     ((exists x, l = LChoose i Dismiss x) \/ l = LRelease i (ReleaseIs None)
         \/ (exists assets lbl, l = LRelease i (ReleaseIs (Some assets)) /\ label_of (c_platform c) lbl
                                /\ Forall (fun a => ~ suits (c_binary c) lbl a) assets)
         \/ l = LCheck i false) -> why_failed (h ++ [l]) i c).
  { intros i c AB X. right. exists (history_of i h), l. rewrite history_snoc, AB. auto. }
  destruct l as [c|i r|i fault hex|i r|i bytes|i|i|i ok|i ch hex|i t hex|i valid|i|name]; cbn [step] in ST;
    try (destruct (nth_error (jobs w) i) as [[c p]|] eqn:J; cbn [option_map j_phase] in ST; [|discriminate];
         destruct (proj2 I _ _ J) as [STD OK]; cbn [j_config j_phase] in STD, OK;
         assert (AB : Nat.eqb i i = true) by apply Nat.eqb_refl).
  - injection ST as ST. destruct I as [A C].
    assert (ADD : forall p, phase_is (h ++ [LStart c]) (length (jobs w)) c p ->
       all_are (h ++ [LStart c]) (World (files w) (token w) (jobs w ++ [Job c p]))).
    { intros p P. split; cbn [jobs].
      - rewrite app_length, A, starts_snoc. reflexivity.
      - intros k j H. destruct (Nat.lt_ge_cases k (length (jobs w))) as [L|L].
        + rewrite nth_error_app1 in H by exact L. destruct (C _ _ H). auto using started_snoc, phase_is_keep.
        + rewrite nth_error_app2 in H by exact L. destruct (k - length (jobs w))%nat eqn:E; [|destruct n; discriminate].
          injection H as <-. assert (k = length (jobs w)) as -> by lia. split; [|exact P].
          exists h, []. split; [reflexivity|]. symmetry. exact A. }
    unfold start in ST. destruct (c_setting c) as [|x r] eqn:E.
    + destruct (platform_label (c_platform c)) as [lbl|] eqn:L; apply pair_equal_spec in ST as [<- <-]; apply ADD; cbn.
      * split; [exact E|]. exists lbl. apply platform_label_spec. exact L.
      * left. split; [exact E|]. intros lbl X. apply platform_label_spec in X. congruence.
    + apply pair_equal_spec in ST as [<- <-]. apply ADD. cbn [phase_is].
      split; [congruence|]. rewrite <- E. eapply expand_spec; eassumption.
  - destruct p; try discriminate. cbn [phase_is] in OK. destruct r as [|[assets|]].
    + injection ST as <- <-. eapply GO; eauto.
    + destruct (platform_label (c_platform c)) as [lbl|] eqn:L; [|discriminate].
      apply platform_label_spec in L.
      destruct (find_asset _ _ _) as [a|] eqn:F; injection ST as <- <-; (eapply GO; [eauto|eauto|]).
      * split; [tauto|]. exists c, lbl, assets. split; [auto using started_snoc|]. split; [exact L|].
        split; [apply in_or_app; right; left; reflexivity|apply find_asset_spec; exact F].
      * cbn. apply LAST; [exact AB|]. right. right. left. exists assets, lbl.
        split; [reflexivity|]. split; [exact L|]. apply find_asset_none. exact F.
    + injection ST as <- <-. eapply GO; [eauto|eauto|]. cbn. apply LAST; auto.
  - destruct p; try discriminate. destruct OK as [OK O].
    destruct (negb fault && file_exists w (a_name a)) eqn:E; injection ST as <- <-; (eapply GO; [eauto|eauto|]); cbn;
      eauto using offered_snoc.
  - destruct p; try discriminate. destruct OK as [OK O].
    destruct r as [|[[n|]|]]; injection ST as <- <-; (eapply GO; [eauto|eauto|]); cbn; auto using offered_snoc.
  - destruct p; try discriminate. destruct OK as [OK O]. injection ST as <- <-. apply KEEP; [discriminate|].
    intros k j K B. cbn [about] in B. apply Nat.eqb_eq in B as <-. rewrite J in K. injection K as <-. cbn. auto using offered_snoc.
  - destruct p; try discriminate. destruct OK as [OK O]. injection ST as <- <-. eapply GO; [eauto|eauto|]. cbn. auto using offered_snoc.
  - destruct p; try discriminate. destruct OK as [OK O]. injection ST as <- <-. eapply GO; [eauto|eauto|]. cbn. auto using offered_snoc.
  - destruct p; try discriminate. destruct OK as [OK O]. destruct ok; [destruct (alookup _ _ _); [|discriminate]|];
      injection ST as <- <-; (eapply GO; [eauto|eauto|]); cbn; eauto using offered_snoc.
  - destruct p as [| | | | |st| | | | |]; try discriminate. destruct ch.
    + injection ST as <- <-. eapply GO; [eauto|eauto|]. destruct st; cbn in *; [exact OK|]. destruct OK. auto using offered_snoc.
    + destruct st; injection ST as <- <-; (eapply GO; [eauto|eauto|]); cbn in *; [exact OK|]. destruct OK. auto using offered_snoc.
    + injection ST as <- <-. eapply GO; [eauto|eauto|]. cbn. apply LAST; eauto.
  - destruct p as [| | | | | |st| | | |]; try discriminate.
    assert (R : forall tok, all_are (h ++ [LInput i t hex]) (fst (attempt (World (files w) tok (jobs w)) i st hex))).
    { intros tok. destruct st; (eapply GO; [eauto|eauto|]); cbn in *; [exact OK|]. destruct OK. auto using offered_snoc. }
    injection ST as ST. destruct t as [[|d v]|].
    + specialize (R None). rewrite ST in R. exact R.
    + specialize (R (Some (d :: v))). rewrite ST in R. exact R.
    + specialize (R (token w)). destruct w as [fs tk js]; cbn [files token jobs] in *. rewrite ST in R. exact R.
  - destruct p as [| | | | | | |loc| | |]; try discriminate. injection ST as <- <-. eapply GO; [eauto|eauto|].
    destruct valid; [|cbn; apply LAST; auto]. destruct loc as [q|n]; cbn in *; [exact OK|].
    destruct OK as (OK & a & O & E). eauto using offered_snoc.
  - injection ST as <- <-. eapply GO; [eauto|eauto|]. exact Logic.I.
  - injection ST as <- <-. apply KEEP; [discriminate|]. intros k j _ B. discriminate.
Qed.
Lemma all_run w h w' os : run w h = Some (w', os) -> jobs w = [] -> all_are h w'.
Proof.
  intros R J. revert w' os R. induction h as [|l h IH] using rev_ind; intros w' os R.
  - injection R as <- <-. split; [rewrite J; reflexivity|].
    intros i j X. rewrite J in X. destruct i; discriminate.
  - apply run_snoc in R as (w1 & os1 & o & R & S & ->). eapply all_step; [|exact S]. eapply IH; exact R.
Qed.

(** ** The token *)
Lemma attempt_token w i st hex : token (fst (attempt w i st hex)) = token w.
Proof. destruct st; reflexivity. Qed.
Lemma step_token w l w' o : step w l = Some (w', o) ->
  token w' = match l with LInput _ (Some []) _ => None | LInput _ (Some v) _ => Some v | _ => token w end.
Proof.
  destruct l as [c|i r|i fault hex|i r|i bytes|i|i|i ok|i ch hex|i t hex|i valid|i|name]; cbn [step]; intros ST;
    try (destruct (nth_error (jobs w) i) as [[c p]|] eqn:J; cbn [option_map j_phase] in ST; [|discriminate]).
  - injection ST as ST. unfold start in ST. destruct (c_setting c); [destruct (platform_label _)|];
      apply pair_equal_spec in ST as [<- _]; reflexivity.
  - destruct p; try discriminate. destruct r as [|[assets|]]; [injection ST as <- _; reflexivity| |injection ST as <- _; reflexivity].
    destruct (platform_label _); [|discriminate]. destruct (find_asset _ _ _); injection ST as <- _; reflexivity.
  - destruct p; try discriminate. destruct (_ && _); injection ST as <- _; reflexivity.
  - destruct p; try discriminate. destruct r as [|[[n|]|]]; injection ST as <- _; reflexivity.
  - destruct p; try discriminate. injection ST as <- _; reflexivity.
  - destruct p; try discriminate. injection ST as <- _; reflexivity.
  - destruct p; try discriminate. injection ST as <- _; reflexivity.
  - destruct p; try discriminate. destruct ok; [destruct (alookup _ _ _); [|discriminate]|]; injection ST as <- _; reflexivity.
  - destruct p as [| | | | |st| | | | |]; try discriminate. destruct ch; [| |]; [|destruct st|]; injection ST as <- _; reflexivity.
  - destruct p as [| | | | | |st| | | |]; try discriminate. destruct st, t as [[|d v]|]; injection ST as <- _; reflexivity.
  - destruct p; try discriminate. injection ST as <- _; reflexivity.
  - injection ST as <- _; reflexivity.
  - injection ST as <- _; reflexivity.
Qed.
Lemma token_step w l w' o t0 h : token_after t0 h (token w) -> step w l = Some (w', o) -> token_after t0 (h ++ [l]) (token w').
Proof.
  intros T S. rewrite (step_token _ _ _ _ S). destruct l; try (apply token_other; [exact T|congruence]).
  destruct t as [[|d v]|].
  - eapply token_cleared. exact T.
  - eapply token_entered; [exact T|discriminate].
  - eapply token_closed. exact T.
Qed.
Lemma token_run w h w' os : run w h = Some (w', os) -> token_after (token w) h (token w').
Proof.
  revert w' os. induction h as [|l h IH] using rev_ind; intros w' os R.
  - injection R as <- <-. constructor.
  - apply run_snoc in R as (w1 & os1 & o & R & S & ->). eapply token_step; [|exact S]. eapply IH; exact R.
Qed.
Lemma token_snoc_inv t0 g t : token_after t0 g t -> forall h l, g = h ++ [l] ->
  exists x, token_after t0 h x /\ t = match l with LInput _ (Some []) _ => None | LInput _ (Some v) _ => Some v | _ => x end.
Proof.
  destruct 1 as [t|t g i x hex v A N|t g i x hex A|t g i x hex A|t g x m A N]; intros h l E.
  - destruct h; discriminate.
  - apply app_inj_tail in E as [<- <-]. exists x. split; [exact A|]. destruct v; congruence.
  - apply app_inj_tail in E as [<- <-]. eauto.
  - apply app_inj_tail in E as [<- <-]. eauto.
  - apply app_inj_tail in E as [<- <-]. exists x. split; [exact A|]. destruct m; try reflexivity. destruct (N i t0 hex). reflexivity.
Qed.
Lemma token_after_fun t0 h : forall t t', token_after t0 h t -> token_after t0 h t' -> t = t'.
Proof.
  induction h as [|l h IH] using rev_ind; intros t t' A B.
  - inversion A; subst; try (destruct h; discriminate). inversion B; subst; try (destruct h; discriminate). reflexivity.
  - destruct (token_snoc_inv _ _ _ A _ _ eq_refl) as (x & A' & ->).
    destruct (token_snoc_inv _ _ _ B _ _ eq_refl) as (y & B' & ->). rewrite (IH _ _ A' B'). reflexivity.
Qed.

(** ** What a step shows *)
Lemma step_api w l w' o tok : step w l = Some (w', o) -> In (OApi tok) o ->
  o = [OApi tok] /\ tok = token w' /\
  ((exists c, l = LStart c /\ c_setting c = [] /\ nth_error (jobs w') (length (jobs w)) = Some (Job c PRelease)) \/
   exists i j, asked l i /\ nth_error (jobs w) i = Some j /\ nth_error (jobs w') i = Some (Job (j_config j) PRelease)).
Proof.
  destruct l as [c|i r|i fault hex|i r|i bytes|i|i|i ok|i ch hex|i t hex|i valid|i|name]; cbn [step]; intros ST IN;
    try (destruct (nth_error (jobs w) i) as [[c p]|] eqn:J; cbn [option_map j_phase] in ST; [|discriminate]).
  - injection ST as ST. unfold start in ST. destruct (c_setting c) eqn:E; [destruct (platform_label _)|];
      apply pair_equal_spec in ST as [<- <-]; cbn in IN; try tauto. destruct IN as [IN|[]]. injection IN as <-.
    split; [reflexivity|]. split; [reflexivity|]. left. exists c. split; [reflexivity|]. split; [exact E|].
    cbn [jobs]. rewrite nth_error_app2, Nat.sub_diag by lia. reflexivity.
  - destruct p; try discriminate. destruct r as [|[assets|]]; [injection ST as <- <-| |injection ST as <- <-].
    + cbn in IN. intuition discriminate.
    + destruct (platform_label _); [|discriminate]. destruct (find_asset _ _ _); injection ST as <- <-; destruct IN.
    + destruct IN.
  - destruct p; try discriminate. destruct (_ && _); injection ST as <- <-; cbn in IN; intuition discriminate.
  - destruct p; try discriminate. destruct r as [|[[n|]|]]; injection ST as <- <-; cbn in IN; intuition discriminate.
  - destruct p; try discriminate. injection ST as <- <-. destruct IN.
  - destruct p; try discriminate. injection ST as <- <-. destruct IN.
  - destruct p; try discriminate. injection ST as <- <-. cbn in IN; intuition discriminate.
  - destruct p; try discriminate. destruct ok; [destruct (alookup _ _ _); [|discriminate]|]; injection ST as <- <-; cbn in IN; intuition discriminate.
  - destruct p as [| | | | |st| | | | |]; try discriminate. destruct ch; [| |]; [|destruct st|]; injection ST as <- <-; cbn in IN; try (intuition discriminate).
    destruct IN as [IN|[]]. injection IN as <-. split; [reflexivity|]. split; [reflexivity|]. right.
    exists i, (Job c (PDialog SRelease)). split; [left; eauto|]. split; [exact J|]. apply (set_phase_same _ _ _ _ J).
  - destruct p as [| | | | | |st| | | |]; try discriminate.
    destruct st, t as [[|d v]|]; injection ST as <- <-; cbn in IN; try (intuition discriminate);
    destruct IN as [IN|[]]; injection IN as <-; (split; [reflexivity|]; split; [reflexivity|]; right;
    exists i, (Job c (PBox SRelease)); split; [right; eauto|]; split; [exact J|]; apply (set_phase_same _ _ _ _ J)).
  - destruct p; try discriminate. injection ST as <- <-. destruct IN.
  - injection ST as <- <-. destruct IN.
  - injection ST as <- <-. destruct IN.
Qed.
Lemma step_get w l w' o url : step w l = Some (w', o) -> In (OGet url) o ->
  o = [OGet url] /\ exists i c p a temp, nth_error (jobs w) i = Some (Job c p) /\ nth_error (jobs w') i = Some (Job c (PFetch a temp))
    /\ a_url a = url
    /\ ((exists fault x, l = LStat i fault x /\ p = PStat a /\ (fault = false -> alookup text_eqb (a_name a) (files w) = None))
        \/ (asked l i /\ (p = PDialog (SBinary a) \/ p = PBox (SBinary a)))).
Proof.
  destruct l as [c|i r|i fault hex|i r|i bytes|i|i|i ok|i ch hex|i t hex|i valid|i|name]; cbn [step]; intros ST IN;
    try (destruct (nth_error (jobs w) i) as [[c p]|] eqn:J; cbn [option_map j_phase] in ST; [|discriminate]).
  - injection ST as ST. unfold start in ST. destruct (c_setting c) eqn:E; [destruct (platform_label _)|];
      apply pair_equal_spec in ST as [<- <-]; cbn in IN; intuition discriminate.
  - destruct p; try discriminate. destruct r as [|[assets|]]; [injection ST as <- <-| |injection ST as <- <-].
    + cbn in IN. intuition discriminate.
    + destruct (platform_label _); [|discriminate]. destruct (find_asset _ _ _); injection ST as <- <-; destruct IN.
    + destruct IN.
  - destruct p; try discriminate. destruct (negb fault && file_exists w (a_name a)) eqn:E; injection ST as <- <-; cbn in IN; [destruct IN|].
    destruct IN as [IN|[]]. injection IN as <-. split; [reflexivity|]. exists i, c, (PStat a), a, (temp_name a hex).
    split; [exact J|]. split; [apply (set_phase_same _ _ _ _ J)|]. split; [reflexivity|]. left. exists fault, hex.
    split; [reflexivity|]. split; [reflexivity|]. intros ->. cbn in E. unfold file_exists in E. destruct (alookup _ _ _); [discriminate|reflexivity].
  - destruct p; try discriminate. destruct r as [|[[n|]|]]; injection ST as <- <-; cbn in IN; intuition discriminate.
  - destruct p; try discriminate. injection ST as <- <-. destruct IN.
  - destruct p; try discriminate. injection ST as <- <-. destruct IN.
  - destruct p; try discriminate. injection ST as <- <-. cbn in IN; intuition discriminate.
  - destruct p; try discriminate. destruct ok; [destruct (alookup _ _ _); [|discriminate]|]; injection ST as <- <-; cbn in IN; intuition discriminate.
  - destruct p as [| | | | |st| | | | |]; try discriminate. destruct ch; [| |]; [|destruct st|]; injection ST as <- <-; cbn in IN; try (intuition discriminate).
    destruct IN as [IN|[]]. injection IN as <-. split; [reflexivity|]. exists i, c, (PDialog (SBinary a)), a, (temp_name a hex).
    split; [exact J|]. split; [apply (set_phase_same _ _ _ _ J)|]. split; [reflexivity|]. right. split; [left; eauto|auto].
  - destruct p as [| | | | | |st| | | |]; try discriminate.
    destruct st, t as [[|d v]|]; injection ST as <- <-; cbn in IN; try (intuition discriminate);
    destruct IN as [IN|[]]; injection IN as <-; (split; [reflexivity|]; exists i, c, (PBox (SBinary a)), a, (temp_name a hex);
    split; [exact J|]; split; [apply (set_phase_same _ _ _ _ J)|]; split; [reflexivity|]; right; split; [right; eauto|auto]).
  - destruct p; try discriminate. injection ST as <- <-. destruct IN.
  - injection ST as <- <-. destruct IN.
  - injection ST as <- <-. destruct IN.
Qed.

(** ** Files nobody asked about *)
Lemma other_files w h w' os n : run w h = Some (w', os) -> jobs w = [] -> fresh_draws (map fst (files w)) h ->
  ~ In n (offered_names h) -> (forall x, In x (draws h) -> ~ ends_in n x) -> ~ In (LDelete n) h ->
  alookup text_eqb n (files w') = alookup text_eqb n (files w).
Proof.
  intros R J. revert w' os R. induction h as [|l h IH] using rev_ind; intros w' os R F NO ND NX.
  - injection R as <- <-. reflexivity.
  - apply run_snoc in R as (w1 & os1 & o & R & ST & ->).
    assert (FH : fresh_draws (map fst (files w)) h) by (eapply fresh_snoc; eassumption).
    pose proof (inv_run _ _ _ _ R J FH) as I.
    assert (NO' : forall i a, offered h i a -> a_name a <> n).
    { intros i a O <-. apply NO. unfold offered_names. rewrite map_app, concat_app. apply in_or_app. left.
      apply (offered_name _ _ _ O). }
    assert (ND' : forall i a x, drawn_by h i x -> temp_name a x <> n).
    { intros i a x D <-. apply (ND x); [rewrite draws_app; apply in_or_app; left; eapply drawn_draws; eassumption|].
      exists (path_name (a_name a)). reflexivity. }
    rewrite <- (IH w1 os1 R FH).
    2:{ intros X. apply NO. unfold offered_names. rewrite map_app, concat_app. apply in_or_app. auto. }
    2:{ intros x X. apply ND. rewrite draws_app. apply in_or_app. auto. }
    2:{ intros X. apply NX. apply in_or_app. auto. }
    destruct l as [c|i r|i fault hex|i r|i bytes|i|i|i ok|i ch hex|i t hex|i valid|i|name]; cbn [step] in ST;
    try (destruct (nth_error (jobs w1) i) as [[c p]|] eqn:JJ; cbn [option_map j_phase] in ST; [|discriminate];
         pose proof (proj2 (inv_jobs _ _ _ I _ _ JJ)) as OK; cbn [j_config j_phase] in OK).
    + injection ST as ST. unfold start in ST. destruct (c_setting c); [destruct (platform_label _)|];
        apply pair_equal_spec in ST as [<- _]; reflexivity.
    + destruct p; try discriminate. destruct r as [|[assets|]]; [injection ST as <- _; reflexivity| |injection ST as <- _; reflexivity].
      destruct (platform_label _); [|discriminate]. destruct (find_asset _ _ _); injection ST as <- _; reflexivity.
    + destruct p; try discriminate. destruct (_ && _); injection ST as <- _; reflexivity.
    + destruct p; try discriminate. destruct OK as (_ & _ & x & D & ->).
      destruct r as [|[[k|]|]]; injection ST as <- _; try reflexivity; cbn [files];
        (rewrite alookup_insert_ne; [reflexivity|apply text_eqb_eq|exact (ND' _ _ _ D)]).
    + destruct p; try discriminate. destruct OK as (_ & _ & (x & D & ->) & _). injection ST as <- _. cbn [files].
      apply alookup_append. intros X. symmetry in X. revert X. exact (ND' _ _ _ D).
    + destruct p; try discriminate. injection ST as <- _; reflexivity.
    + destruct p; try discriminate. injection ST as <- _; reflexivity.
    + destruct p; try discriminate. destruct OK as (_ & O & (x & D & ->) & _).
      destruct ok; [destruct (alookup text_eqb (temp_name a x) (files w1)); [|discriminate]|]; injection ST as <- _; [|reflexivity]. cbn [files].
      rewrite alookup_insert_ne; [|apply text_eqb_eq|exact (NO' _ _ O)]. rewrite alookup_remove_ne; [reflexivity|apply text_eqb_eq|exact (ND' _ _ _ D)].
    + destruct p as [| | | | |st| | | | |]; try discriminate. destruct ch; [| |]; [|destruct st|]; injection ST as <- _; reflexivity.
    + destruct p as [| | | | | |st| | | |]; try discriminate. destruct st, t as [[|d v]|]; injection ST as <- _; reflexivity.
    + destruct p; try discriminate. injection ST as <- _; reflexivity.
    + injection ST as <- _; reflexivity.
    + injection ST as <- _. cbn [files]. apply alookup_remove_ne; [apply text_eqb_eq|]. intros ->. apply NX.
      apply in_or_app. right. left. reflexivity.
Qed.

(** ** A call can always be brought to an end *)
Definition finishes (w : world) (i : nat) (c : config) : Prop :=
  exists h2 w2 os l, Forall (fun l => about i l = true) h2 /\ run w h2 = Some (w2, os)
    /\ nth_error (jobs w2) i = Some (Job c (PReady l)).
Lemma finishes_step w l w' o i c : step w l = Some (w', o) -> about i l = true -> finishes w' i c -> finishes w i c.
Proof.
  intros S A (h2 & w2 & os & loc & F & R & J). exists (l :: h2), w2, (o :: os), loc.
  split; [constructor; assumption|]. split; [cbn [run]; rewrite S, R; reflexivity|exact J].
Qed.
Definition phase_at (w : world) (i : nat) (c : config) (p : phase) : Prop := nth_error (jobs w) i = Some (Job c p).
Lemma at_goes w i c p q : phase_at w i c p -> forall fs tok, phase_at (World fs tok (set_phase i q (jobs w))) i c q.
Proof. intros J fs tok. unfold phase_at. cbn [jobs]. rewrite (set_phase_same _ _ _ _ J). reflexivity. Qed.

Section Finish.
  Context (i : nat) (c : config) (hex : text).
  Ltac one l J := eapply (finishes_step _ l); [cbn [step]; unfold phase_at in J; rewrite J; cbn [option_map j_phase]; reflexivity
    | cbn [about]; apply Nat.eqb_refl|].
  Lemma finish_found w l : phase_at w i c (PFound l) -> finishes w i c.
  Proof.
    intros J. one (LCheck i true) J. eexists [], _, [], l. split; [constructor|]. split; [reflexivity|].
    eapply at_goes. exact J.
  Qed.
  Lemma finish_fetch w a temp : phase_at w i c (PFetch a temp) -> finishes w i c.
  Proof.
    intros J. one (LResponse i (BodyFollows None)) J.
    pose proof (at_goes _ _ _ _ (PBody a temp) J (ainsert text_eqb temp [] (files w)) (token w)) as J1.
    set (w1 := World _ _ _) in *. one (LEnd i) J1.
    pose proof (at_goes _ _ _ _ (PRename a temp) J1 (files w1) (token w1)) as J2.
    unfold goes. set (w2 := World (files w1) _ _) in *.
    eapply (finishes_step _ (LRename i true)).
    - cbn [step]. unfold phase_at in J2. rewrite J2. cbn [option_map j_phase]. unfold w2, w1. cbn [files].
      rewrite alookup_insert by apply text_eqb_eq. reflexivity.
    - apply Nat.eqb_refl.
    - eapply finish_found. eapply at_goes. exact J2.
  Qed.
  Lemma finish_retry_binary w a : phase_at w i c (PDialog (SBinary a)) -> finishes w i c.
  Proof. intros J. one (LChoose i Retry hex) J. eapply finish_fetch. eapply at_goes. exact J. Qed.
  Lemma finish_stat w a : phase_at w i c (PStat a) -> finishes w i c.
  Proof.
    intros J. destruct (file_exists w (a_name a)) eqn:E.
    - eapply (finishes_step _ (LStat i false hex)); [|apply Nat.eqb_refl|].
      + cbn [step]. unfold phase_at in J. rewrite J. cbn [option_map j_phase]. rewrite E. reflexivity.
      + eapply finish_found. eapply at_goes. exact J.
    - eapply (finishes_step _ (LStat i false hex)); [|apply Nat.eqb_refl|].
      + cbn [step]. unfold phase_at in J. rewrite J. cbn [option_map j_phase]. rewrite E. reflexivity.
      + eapply finish_fetch. eapply at_goes. exact J.
  Qed.
  Lemma finish_release w lbl assets a : label_of (c_platform c) lbl -> first_suitable (c_binary c) lbl assets a ->
    phase_at w i c PRelease -> finishes w i c.
  Proof.
    intros L S J. apply platform_label_spec in L. apply find_asset_spec in S.
    eapply (finishes_step _ (LRelease i (ReleaseIs (Some assets)))); [|apply Nat.eqb_refl|].
    - cbn [step]. unfold phase_at in J. rewrite J, L, S. reflexivity.
    - eapply finish_stat. eapply at_goes. exact J.
  Qed.
  Lemma finish_any h w p : phase_is h i c p -> phase_at w i c p -> p <> PFailed -> p <> PKilled -> finishes w i c.
  Proof.
    assert (REL : (exists lbl, label_of (c_platform c) lbl) -> forall w, phase_at w i c PRelease -> finishes w i c).
    { intros [lbl L] v J. set (a := Asset (c_binary c ++ lbl) []). apply (finish_release v lbl [a] a L); [|exact J].
      exists [], []. split; [reflexivity|]. split; [|constructor]. split; [exists lbl; reflexivity|].
      exists (c_binary c), []. cbn. rewrite app_nil_r. reflexivity. }
    intros P J N1 N2. destruct p as [|a|a temp|a temp|a temp|[|a]|[|a]|l|l| |]; cbn [phase_is] in P; try congruence.
    - apply REL; tauto.
    - eapply finish_stat; exact J.
    - eapply finish_fetch; exact J.
    - one (LStreamFails i) J. eapply finish_retry_binary. eapply at_goes. exact J.
    - one (LRename i false) J. eapply finish_retry_binary. eapply at_goes. exact J.
    - one (LChoose i Retry hex) J. apply REL; [tauto|]. eapply at_goes. exact J.
    - eapply finish_retry_binary; exact J.
    - one (LInput i None hex) J. apply REL; [tauto|]. eapply at_goes. exact J.
    - one (LInput i None hex) J. eapply finish_fetch. eapply at_goes. exact J.
    - eapply finish_found; exact J.
    - eexists [], w, [], l. split; [constructor|]. split; [reflexivity|exact J].
  Qed.
End Finish.

(** ** Progress *)
Lemma percentage_spec read total : total <> 0 ->
  2 * total * percentage read total <= 200 * read + total < 2 * total * (percentage read total + 1).
Proof.
  intros T. unfold percentage. set (q := (200 * read + total) / (2 * total)).
  pose proof (N.div_mod (200 * read + total) (2 * total) ltac:(lia)) as D. fold q in D.
  pose proof (N.mod_lt (200 * read + total) (2 * total) ltac:(lia)) as M. lia.
Qed.
Lemma percentage_mono a b total : total <> 0 -> a <= b -> percentage a total <= percentage b total.
Proof. intros T L. unfold percentage. apply N.div_le_mono; lia. Qed.
Lemma percentage_max a total : total <> 0 -> a <= total -> percentage a total <= 100.
Proof.
  intros T L. pose proof (percentage_spec a total T) as [A _].
  assert (2 * total * percentage a total <= 2 * total * 100 + total) by lia. 
  destruct (N.le_gt_cases (percentage a total) 100) as [H1|H1]; [exact H1|].
  assert (2 * total * 101 <= 2 * total * percentage a total) by (apply N.mul_le_mono_l; lia). lia.
Qed.
Lemma nearest_unique p q read total : total <> 0 -> nearest_percent p read total -> nearest_percent q read total -> p = q.
Proof.
  unfold nearest_percent. intros T A B. destruct (N.lt_trichotomy p q) as [L|[L|L]]; [exfalso| exact L |exfalso].
  - assert (2 * total * (p + 1) <= 2 * total * q) by (apply N.mul_le_mono_l; lia). lia.
  - assert (2 * total * (q + 1) <= 2 * total * p) by (apply N.mul_le_mono_l; lia). lia.
Qed.
Lemma reports_spec total chunks : total <> 0 -> forall read, 
  let rs := reports total (percentage read total) read chunks in
  StronglySorted N.lt (map fst rs) /\ Forall (fun r => percentage read total < fst r /\ fst r <= percentage (read + total_of chunks) total /\ (0 < snd r)%Z) rs
  /\ (Z.of_N (percentage read total) + sum_of (map snd rs) = Z.of_N (percentage (read + total_of chunks) total))%Z
  /\ last (map fst rs) (percentage read total) = percentage (read + total_of chunks) total.
Proof.
  intros T. induction chunks as [|n r IH]; intros read; cbn [reports total_of fold_right].
  - cbn [map sum_of fold_right last]. rewrite N.add_0_r, Z.add_0_r. repeat split; constructor.
  - fold (total_of r). specialize (IH (read + n)). cbv zeta in IH.
    replace (read + n + total_of r) with (read + (n + total_of r)) in IH by lia.
    pose proof (percentage_mono read (read + n) total T ltac:(lia)) as M.
    destruct (percentage (read + n) total =? percentage read total) eqn:E.
    + apply N.eqb_eq in E. rewrite E in IH. exact IH.
    + apply N.eqb_neq in E. destruct IH as (A & B & C & D).
      pose proof (percentage_mono (read + n) (read + (n + total_of r)) total T ltac:(lia)) as M2. cbn [map fst snd sum_of fold_right].
      split; [constructor; [exact A|]|split; [|split]].
      * clear - B. induction B as [|[a b] l [X _] F IH']; constructor; auto.
      * constructor; [cbn [fst snd]; lia|]. eapply Forall_impl; [|exact B]. cbv beta. intros [a b]; cbn [fst snd]. lia.
      * fold (sum_of (map snd (reports total (percentage (read + n) total) (read + n) r))). lia.
      * destruct (map fst (reports total (percentage (read + n) total) (read + n) r)) as [|x l] eqn:R; [exact D|].
        change (last (x :: l) (percentage read total) = percentage (read + (n + total_of r)) total).
        rewrite <- D. clear. revert x. induction l as [|y l IH']; intros x; [reflexivity|].
        change (last (y :: l) (percentage read total) = last (y :: l) (percentage (read + n) total)). apply IH'.
Qed.
