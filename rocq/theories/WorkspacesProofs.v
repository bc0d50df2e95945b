(** Proofs about Workspaces.v *)
From Coq Require Import String.
From Verif Require Import Base BaseProofs Workspaces WorkspacesSpec.
Open Scope nat_scope.

(** ** Lists *)
Lemma nth_update_same {A} n (x y : A) l : nth_error l n = Some x -> nth_error (update n y l) n = Some y.
Proof. revert n. induction l as [|z l IH]; intros [|n] H; cbn in *; try discriminate; auto. Qed.
Lemma nth_update_other {A} n m (y : A) l : n <> m -> nth_error (update n y l) m = nth_error l m.
Proof. revert n m. induction l as [|z l IH]; intros [|n] [|m] H; cbn; auto; try congruence. Qed.
Lemma update_length {A} n (y : A) l : length (update n y l) = length l.
Proof. revert n. induction l as [|z l IH]; intros [|n]; cbn; auto. Qed.
Lemma nth_update_inv {A} n m (y : A) l x : nth_error (update n y l) m = Some x -> (n = m /\ x = y) \/ (n <> m /\ nth_error l m = Some x).
Proof.
  destruct (Nat.eq_dec n m) as [->|N].
  - intros H. left. split; [reflexivity|]. assert (L : m < length (update m y l)) by (apply nth_error_Some; congruence).
    rewrite update_length in L. apply nth_error_Some in L. destruct (nth_error l m) as [z|] eqn:E; [|congruence].
    rewrite (nth_update_same _ _ _ _ E) in H. congruence.
  - rewrite nth_update_other by exact N. auto.
Qed.
Lemma nth_snoc_inv {A} (l : list A) x m y : nth_error (l ++ [x]) m = Some y -> nth_error l m = Some y \/ (m = length l /\ y = x).
Proof.
  destruct (Nat.lt_ge_cases m (length l)) as [L|L].
  - rewrite nth_error_app1 by exact L. auto.
  - rewrite nth_error_app2 by exact L. destruct (m - length l) eqn:E; cbn; [|destruct n; discriminate].
    intros H. right. split; [lia|congruence].
Qed.
Definition cnt {A} (p : A -> bool) (l : list A) : nat := length (filter p l).
Definition bn (b : bool) : nat := if b then 1 else 0.
Lemma cnt_app {A} (p : A -> bool) a b : cnt p (a ++ b) = cnt p a + cnt p b.
Proof. unfold cnt. rewrite filter_app, app_length. reflexivity. Qed.
Lemma cnt_one {A} (p : A -> bool) x : cnt p [x] = bn (p x).
Proof. unfold cnt. cbn. destruct (p x); reflexivity. Qed.
Lemma cnt_cons {A} (p : A -> bool) x l : cnt p (x :: l) = bn (p x) + cnt p l.
Proof. rewrite <- cnt_one. exact (cnt_app p [x] l). Qed.
Lemma cnt_update {A} (p : A -> bool) n x y l : nth_error l n = Some x -> cnt p (update n y l) + bn (p x) = cnt p l + bn (p y).
Proof.
  revert n. induction l as [|z l IH]; intros [|n] H; cbn [nth_error] in H; try discriminate.
  - injection H as ->. cbn [update]. rewrite !cnt_cons. lia.
  - cbn [update]. rewrite !cnt_cons. specialize (IH n H). lia.
Qed.
Lemma cnt_map {A} (p : A -> bool) f l : (forall x, p (f x) = p x) -> cnt p (map f l) = cnt p l.
Proof. intros H. induction l as [|x l IH]; [reflexivity|]. cbn [map]. rewrite !cnt_cons, H, IH. reflexivity. Qed.
Lemma cnt_pos {A} (p : A -> bool) l n x : nth_error l n = Some x -> p x = true -> 0 < cnt p l.
Proof.
  intros H P. apply nth_error_split in H as (a & b & -> & _). rewrite cnt_app, cnt_cons, P. cbn. lia.
Qed.
Lemma cnt_two {A} (p : A -> bool) l n m x y : nth_error l n = Some x -> p x = true -> nth_error l m = Some y -> p y = true -> n <> m -> 2 <= cnt p l.
Proof.
  revert n m. induction l as [|z l IH]; intros [|n] [|m] H P K Q N; cbn [nth_error] in *; try discriminate; try congruence; rewrite cnt_cons.
  - injection H as ->. rewrite P. pose proof (cnt_pos _ _ _ _ K Q). cbn. lia.
  - injection K as ->. rewrite Q. pose proof (cnt_pos _ _ _ _ H P). cbn. lia.
  - specialize (IH n m H P K Q). assert (n <> m) by congruence. specialize (IH H0). lia.
Qed.

Lemma mem_spec f l : mem f l = true <-> In f l.
Proof.
  unfold mem. rewrite existsb_exists. split.
  - intros (x & I & E). apply text_eqb_eq in E as ->. exact I.
  - intros I. exists f. split; [exact I|apply text_eqb_refl].
Qed.
Lemma ends_with_spec t s : path_ends_with t s = true <-> exists a, t = a ++ s.
Proof.
  unfold path_ends_with. rewrite starts_with_spec. split; intros [r H].
  - exists (rev r). apply (f_equal (@rev _)) in H. rewrite rev_app_distr, !rev_involutive in H. exact H.
  - exists (rev r). rewrite H, rev_app_distr. reflexivity.
Qed.
Lemma is_move_spec d : is_move_document d = true <-> move_document d.
Proof.
  unfold is_move_document, move_document, is_dove_toml. rewrite andb_true_iff, orb_true_iff, !text_eqb_eq, ends_with_spec. reflexivity.
Qed.

(** ** Runs *)
Lemma run_snoc st h l st' os : run st (h ++ [l]) = Some (st', os) ->
  exists st1 os1 o, run st h = Some (st1, os1) /\ step st1 l = Some (st', o) /\ os = os1 ++ [o].
Proof.
  revert st os. induction h as [|m h IH]; intros st os H; cbn [app run] in H.
  - destruct (step st l) as [[st1 o]|] eqn:E; [|discriminate]. injection H as <- <-. exists st, [], o. auto.
  - destruct (step st m) as [[st1 o]|] eqn:E; [|discriminate].
    destruct (run st1 (h ++ [l])) as [[st2 os2]|] eqn:F; [|discriminate]. injection H as <- <-.
    destruct (IH _ _ F) as (st3 & os3 & o3 & A & B & ->). exists st3, (o :: os3), o3. cbn [run]. rewrite E, A. auto.
Qed.

(** ** Outputs *)
Lemma concat_snoc {A} (os : list (list A)) o : concat (os ++ [o]) = concat os ++ o.
Proof. rewrite concat_app. cbn. rewrite app_nil_r. reflexivity. Qed.
Definition fservers (o : list output) := concat (map (fun o => match o with OStart f _ _ _ => [f] | _ => [] end) o).
Definition fstopped (o : list output) := concat (map (fun o => match o with OStop n => [n] | _ => [] end) o).
Definition facts (o : list output) := length (filter (fun o => match o with OActivate => true | _ => false end) o).
Lemma servers_app a b : fservers (a ++ b) = fservers a ++ fservers b.
Proof. unfold fservers. rewrite map_app, concat_app. reflexivity. Qed.
Lemma stopped_app a b : fstopped (a ++ b) = fstopped a ++ fstopped b.
Proof. unfold fstopped. rewrite map_app, concat_app. reflexivity. Qed.
Lemma acts_app a b : facts (a ++ b) = facts a + facts b.
Proof. unfold facts. rewrite filter_app, app_length. reflexivity. Qed.

(** The life of the extension *)
Inductive life := Idle | Running | Good | Bad.
Definition lives (s : life) (o : output) : life :=
  match o with OActivate => Running | OActivated => Good | OActivationFailed => Bad | _ => s end.
Definition life_of (O : list output) : life := fold_left lives O Idle.
Lemma life_app O o : life_of (O ++ o) = fold_left lives o (life_of O).
Proof. unfold life_of. apply fold_left_app. Qed.

Definition early (g : nat) : list sub := [SFactory g; SEditor g; SSaveInit g].
Definition late (g : nat) : list sub := [SCommand g; SSettings g; SCreate g; SDelete g; SSaveCheck g].
Definition pending_act (st : state) (i : nat) : Prop :=
  exists k, nth_error (tasks st) i = Some k /\ t_activates k = true /\ t_phase k <> WOver.

(** The listeners registered and the activations under way, by life; no
    activation but the last is under way *)
Record shape (s : life) (st : state) : Prop := {
  sh_idle : s = Idle <-> gens st = [];
  sh_none : s = Idle -> subs st = [] /\ tasks st = [] /\ clients st = [];
  sh_early : s = Running \/ s = Bad -> subs st = early (pred (length (gens st)));
  sh_full : s = Good -> subs st = early (pred (length (gens st))) ++ late (pred (length (gens st)));
  sh_pending : forall i, pending_act st i -> s = Running;
  sh_gen : forall i k, nth_error (tasks st) i = Some k -> t_gen k < length (gens st);
  sh_last : forall i k, nth_error (tasks st) i = Some k -> t_activates k = true -> t_phase k <> WOver -> t_gen k = pred (length (gens st));
  sh_one : forall i j, pending_act st i -> pending_act st j -> i = j }.

Lemma command_life s st : shape s st -> has_command st = true <-> s = Good.
Proof.
  intros H. unfold has_command. destruct s.
  - destruct (sh_none _ _ H eq_refl) as (-> & _). cbn. split; discriminate.
  - rewrite (sh_early _ _ H) by auto. cbn. split; discriminate.
  - rewrite (sh_full _ _ H eq_refl). cbn. tauto.
  - rewrite (sh_early _ _ H) by auto. cbn. split; discriminate.
Qed.

(** *** Changes that do not matter to the shape *)
Lemma shape_gens s st gs : shape s st -> length gs = length (gens st) -> shape s (State gs (subs st) (tasks st) (clients st)).
Proof.
  intros [A B C D E F G H] L. constructor; cbn [gens subs tasks clients]; try rewrite L; auto.
  rewrite A. rewrite <- !length_zero_iff_nil, L. reflexivity.
Qed.
Lemma shape_clients s st cs : shape s st -> s <> Idle -> shape s (State (gens st) (subs st) (tasks st) cs).
Proof. intros [A B C D E F G H] N. constructor; cbn [gens subs tasks clients]; auto. congruence. Qed.
Lemma task_gens s st i k : shape s st -> nth_error (tasks st) i = Some k -> s <> Idle.
Proof. intros H T ->. destruct (sh_none _ _ H eq_refl) as (_ & X & _). rewrite X in T. destruct i; discriminate. Qed.
Lemma shape_task s st t k p : shape s st -> nth_error (tasks st) t = Some k -> t_phase k <> WOver ->
  shape s (set_task t (Task (t_gen k) (t_activates k) p) st).
Proof.
  intros H T P. pose proof (task_gens _ _ _ _ H T) as N. destruct H as [A B C D E F G H].
  assert (PA : forall i, pending_act (set_task t (Task (t_gen k) (t_activates k) p) st) i -> pending_act st i).
  { intros i (k' & K & AC & PH). cbn in K. apply nth_update_inv in K as [[<- ->]|[NE K]].
    - exists k. auto.
    - exists k'. auto. }
  constructor; cbn [set_task gens subs tasks clients]; auto.
  - congruence.
  - intros i PAI. eauto.
  - intros i k' K. apply nth_update_inv in K as [[<- ->]|[NE K]]; [exact (F _ _ T)|exact (F _ _ K)].
  - intros i k' K AC PH. apply nth_update_inv in K as [[<- ->]|[NE K]]; [exact (G _ _ T AC P)|exact (G _ _ K AC PH)].
Qed.
Lemma shape_add s st p : shape s st -> s <> Idle -> shape s (add_task (Task (pred (length (gens st))) false p) st).
Proof.
  intros H N. destruct H as [A B C D E F G H].
  assert (PA : forall i, pending_act (add_task (Task (pred (length (gens st))) false p) st) i -> pending_act st i).
  { intros i (k' & K & AC & PH). cbn in K. apply nth_snoc_inv in K as [K|[-> ->]]; [exists k'; auto|discriminate]. }
  constructor; cbn [add_task gens subs tasks clients]; auto.
  - congruence.
  - intros i PAI. eauto.
  - intros i k' K. apply nth_snoc_inv in K as [K|[-> ->]]; [eauto|]. cbn.
    destruct (gens st) eqn:E0; [|cbn; lia]. exfalso. apply N. apply A. reflexivity.
  - intros i k' K AC PH. apply nth_snoc_inv in K as [K|[-> ->]]; [eauto|discriminate].
Qed.
(** *** The end of an initialisation *)
Lemma over_cases s st t k ok : shape s st -> nth_error (tasks st) t = Some k -> t_phase k <> WOver ->
  exists o, over t k ok st = (State (gens st) (if t_activates k && ok then early (t_gen k) ++ late (t_gen k) else subs st)
                                    (update t (Task (t_gen k) (t_activates k) WOver) (tasks st)) (clients st), o)
  /\ o = (if t_activates k then [if ok then OActivated else OActivationFailed] else [])
  /\ shape (fold_left lives o s) (fst (over t k ok st)).
Proof.
  intros H T P. pose proof (shape_task _ _ _ _ WOver H T P) as H1. unfold over, finish. destruct (t_activates k) eqn:AC.
  - assert (R : s = Running) by (apply (sh_pending _ _ H t); exists k; auto).
    assert (G : t_gen k = pred (length (gens st))) by (eapply (sh_last _ _ H); eassumption).
    assert (NP : forall i, ~ pending_act (set_task t (Task (t_gen k) true WOver) st) i).
    { intros i PA. assert (i = t).
      { apply (sh_one _ _ H); [|exists k; auto]. destruct PA as (k' & K & A & Q). cbn in K.
        apply nth_update_inv in K as [[<- ->]|[NE K]]; [cbn in Q; congruence|exists k'; auto]. }
      subst i. destruct PA as (k' & K & A & Q). cbn in K. rewrite (nth_update_same _ _ _ _ T) in K. injection K as <-. apply Q. reflexivity. }
    destruct ok; cbn [andb].
    + unfold complete. assert (HC : has_command (set_task t (Task (t_gen k) true WOver) st) = false).
      { destruct (has_command _) eqn:E; [|reflexivity]. apply (command_life _ _ H1) in E. congruence. }
      rewrite HC. eexists. cbn [set_task gens subs tasks clients].
      rewrite (sh_early _ _ H) by auto. rewrite <- G. split; [reflexivity|]. split; [reflexivity|]. cbn [fst fold_left lives].
      destruct H1 as [A B C D E F G1 I]. constructor; cbn [gens subs tasks clients set_task] in *; try congruence; auto;
        try (intros [X|X]; discriminate); try (intros _; rewrite G; reflexivity); try (intros i PA; destruct (NP i PA)); try (intros i j PA; destruct (NP i PA)).
      split; [discriminate|]. intros X. apply A in X. congruence.
    + eexists. split; [reflexivity|]. split; [reflexivity|]. cbn [fst fold_left lives].
      destruct H1 as [A B C D E F G1 I]. constructor; cbn [gens subs tasks clients set_task] in *; try congruence; auto;
        try (intros i PA; destruct (NP i PA)); try (intros i j PA; destruct (NP i PA)).
      split; [discriminate|]. intros X. apply A in X. congruence.
  - cbn [andb]. eexists. split; [reflexivity|]. split; [reflexivity|]. exact H1.
Qed.

(** *** Activations and reloads *)
Definition fresh_factory : factory := Factory None [] None.
Definition asks (d : option doc) : option (doc * text) :=
  match d with Some d => match d_folder d with Some f => Some (d, f) | None => None end | None => None end.
Lemma activate_cases st a : subs st = [] ->
  activate a st =
    let g := length (gens st) in
    match asks a with
    | Some (d, f) => (State (gens st ++ [fresh_factory]) (early g) (tasks st ++ [Task g true (WStat d f)]) (clients st), [OActivate])
    | None => (State (gens st ++ [fresh_factory]) (early g ++ late g) (tasks st) (clients st), [OActivate; OActivated])
    end.
Proof.
  intros E. unfold activate, asks, begin_init, finish, complete. rewrite E. cbn [app].
  destruct a as [d|]; [destruct (d_folder d)|]; reflexivity.
Qed.
Lemma activate_shape st a : subs st = [] -> (forall i, ~ pending_act st i) ->
  (forall i k, nth_error (tasks st) i = Some k -> t_gen k < length (gens st)) ->
  forall s, shape (fold_left lives (snd (activate a st)) s) (fst (activate a st)).
Proof.
  intros E NP G s. rewrite activate_cases by exact E. cbv zeta.
  assert (LEN : pred (length (gens st ++ [fresh_factory])) = length (gens st)) by (rewrite app_length; cbn; lia).
  assert (NN : gens st ++ [fresh_factory] <> []) by (destruct (gens st); discriminate).
  destruct (asks a) as [[d f]|]; cbn [fst snd fold_left lives]; constructor; cbn [gens subs tasks clients]; try congruence;
    try (rewrite LEN; auto; fail).
  - split; [discriminate|congruence].
  - intros i k K. rewrite app_length. cbn. apply nth_snoc_inv in K as [K|[_ ->]]; [apply G in K; lia|cbn; lia].
  - intros i k K A P. rewrite LEN. apply nth_snoc_inv in K as [K|[_ ->]]; [|reflexivity].
    destruct (NP i). exists k. auto.
  - assert (L : forall i, pending_act (State (gens st ++ [fresh_factory]) (early (length (gens st)))
         (tasks st ++ [Task (length (gens st)) true (WStat d f)]) (clients st)) i -> i = length (tasks st)).
    { intros i (k & K & A & P). cbn in K. apply nth_snoc_inv in K as [K|[-> _]]; [|reflexivity]. destruct (NP i). exists k. auto. }
    intros i j A B. rewrite (L i A), (L j B). reflexivity.
  - split; [discriminate|congruence].
  - intros [X|X]; discriminate.
  - intros i A. destruct (NP i A).
  - intros i k K. rewrite app_length. apply G in K. lia.
  - intros i k K A P. destruct (NP i). exists k. auto.
  - intros i j A. destruct (NP i A).
Qed.

(** The clients after the factory of activation [g] is disposed *)
Definition disposed (st : state) (g : nat) : list client :=
  match nth_error (gens st) g with
  | None => clients st
  | Some fa => map (fun c => if stops g (f_spaces fa) c then Client (c_gen c) (c_folder c) false else c) (clients st)
  end.
Definition disposed_out (st : state) (g : nat) : list output :=
  match nth_error (gens st) g with None => [] | Some fa => stopped_ids g (f_spaces fa) 0 (clients st) end.
Lemma dispose_full g st : dispose_all (rev (early g ++ late g)) st =
  (State (gens st) (subs st) (tasks st) (disposed st g), disposed_out st g).
Proof.
  unfold disposed, disposed_out. destruct st as [gs ss ts cs]. cbn [rev early late app dispose_all dispose gens subs tasks clients].
  destruct (nth_error gs g); rewrite ?app_nil_r; reflexivity.
Qed.
Lemma reload_cases s st a : shape s st ->
  (s = Good /\ reload a st =
     (let g := pred (length (gens st)) in
      let r := activate a (State (gens st) [] (tasks st) (disposed st g)) in
      (fst r, OReloaded :: disposed_out st g ++ snd r)))
  \/ (s <> Good /\ reload a st = (st, [])).
Proof.
  intros H. unfold reload. destruct (has_command st) eqn:E.
  - left. apply (command_life _ _ H) in E. split; [exact E|]. rewrite (sh_full _ _ H E), dispose_full.
    cbv zeta. cbn [gens subs tasks clients]. unfold disposed_out, disposed. cbn [gens clients].
    destruct (activate _ _); reflexivity.
  - right. split; [|reflexivity]. intros X. apply (command_life _ _ H) in X. congruence.
Qed.
Lemma lives_stopped g sp n l s : fold_left lives (stopped_ids g sp n l) s = s.
Proof.
  revert n. induction l as [|c l IH]; intros n; [reflexivity|]. cbn [stopped_ids]. rewrite fold_left_app.
  destruct (_ && _); cbn [fold_left lives]; apply IH.
Qed.
Lemma reload_shape s st a : shape s st -> shape (fold_left lives (snd (reload a st)) s) (fst (reload a st)).
Proof.
  intros H. destruct (reload_cases s st a H) as [[G ->]|[_ ->]]; [|exact H]. cbv zeta. cbn [fst snd fold_left lives].
  rewrite fold_left_app. unfold disposed_out. 
  assert (NP : forall i, ~ pending_act st i) by (intros i P; pose proof (sh_pending _ _ H i P); congruence).
  destruct (nth_error _ _); rewrite ?lives_stopped; (apply activate_shape; [reflexivity|exact NP|exact (sh_gen _ _ H)]).
Qed.

(** *** Events *)
Lemma init_cases st g d : begin_init g false d st =
  match asks d with Some (d, f) => (add_task (Task g false (WStat d f)) st, []) | None => (st, []) end.
Proof. unfold begin_init, asks, finish. destruct d as [d|]; [destruct (d_folder d)|]; reflexivity. Qed.
Lemma pair_eta {A B} (p : A * B) : (let (a, b) := p in (a, b)) = p.
Proof. destruct p; reflexivity. Qed.
Lemma deliver_early l g st : deliver_all l (early g) st =
  match l with
  | LEditor d => begin_init g false d st
  | LSave d => if is_dove_toml d then begin_init g false (Some d) st else (st, [])
  | _ => (st, [])
  end.
Proof.
  cbn [early deliver_all].
  destruct l as [a|d|d|[|] files|[|] a|a|t b|t r|t r a]; cbn [deliver]; try reflexivity.
  - destruct (begin_init g false d st). rewrite app_nil_r. reflexivity.
  - destruct (is_dove_toml d); [|reflexivity]. destruct (begin_init g false (Some d) st). rewrite app_nil_r. reflexivity.
Qed.
Lemma deliver_full l g st : deliver_all l (early g ++ late g) st =
  match l with
  | LEditor d => begin_init g false d st
  | LSave d => let r := if is_dove_toml d then begin_init g false (Some d) st else (st, []) in
               (add_task (Task g false (begin_check [d])) (fst r), snd r)
  | LFiles _ files => (add_task (Task g false (begin_check files)) st, [])
  | LSettings true a => reload a st
  | _ => (st, [])
  end.
Proof.
  cbn [early late app deliver_all].
  destruct l as [a|d|d|[|] files|[|] a|a|t b|t r|t r a]; cbn [deliver]; try reflexivity.
  - destruct (begin_init g false d st). rewrite app_nil_r. reflexivity.
  - destruct (is_dove_toml d); [|reflexivity]. destruct (begin_init g false (Some d) st). cbn [fst snd]. rewrite app_nil_r. reflexivity.
  - destruct (reload a st). rewrite app_nil_r. reflexivity.
Qed.

(** What a step does, by the life of the extension: nothing but these *)
Inductive effect (st : state) (l : label) : state -> list output -> Prop :=
| e_nothing : effect st l st []
| e_activate a : l = LActivate a -> gens st = [] -> effect st l (fst (activate a st)) (snd (activate a st))
| e_reload a t ts : (l = LReload a \/ l = LSettings true a \/ exists r, l = LMeta t r a) ->
    (ts = tasks st \/ exists k f rest, nth_error (tasks st) t = Some k /\ t_phase k = WCheckMeta f rest
        /\ ts = update t (Task (t_gen k) (t_activates k) (begin_check rest)) (tasks st)) ->
    effect st l (fst (reload a (State (gens st) (subs st) ts (clients st)))) (snd (reload a (State (gens st) (subs st) ts (clients st))))
| e_init d f : (l = LEditor (Some d) \/ l = LSave d) -> d_folder d = Some f -> gens st <> [] ->
    effect st l (add_task (Task (pred (length (gens st))) false (WStat d f)) st) []
| e_check files : gens st <> [] -> (l = LSave (hd (Doc None [] [] []) files) /\ files <> [] \/ exists b, l = LFiles b files) ->
    effect st l (add_task (Task (pred (length (gens st))) false (begin_check files)) st) []
| e_both d f : l = LSave d -> d_folder d = Some f -> gens st <> [] ->
    effect st l (add_task (Task (pred (length (gens st))) false (begin_check [d])) (add_task (Task (pred (length (gens st))) false (WStat d f)) st)) []
| e_boot t k d f : l = LStat t true -> nth_error (tasks st) t = Some k -> t_phase k = WStat d f ->
    effect st l (set_task t (Task (t_gen k) (t_activates k) (WBoot d f)) st) []
| e_over t k ok : nth_error (tasks st) t = Some k ->
    (exists d f, t_phase k = WStat d f /\ l = LStat t false /\ ok = true) \/ (exists d f, t_phase k = WBoot d f /\ l = LBoot t None /\ ok = false)
    \/ (exists f s d a, (t_phase k = WMeta f s d \/ t_phase k = WStart f s d) /\ l = LMeta t BadJson a /\ ok = false) ->
    effect st l (fst (over t k ok st)) (snd (over t k ok st))
| e_known t k d f fa fa' execs : nth_error (tasks st) t = Some k -> (l = LStat t true /\ t_phase k = WStat d f \/ l = LBoot t (Some execs) /\ t_phase k = WBoot d f) ->
    nth_error (gens st) (t_gen k) = Some fa -> f_spaces fa' = f_spaces fa -> (f_execs fa' = f_execs fa \/ l = LBoot t (Some execs) /\ f_execs fa' = Some execs) ->
    effect st l (fst (over t k true (set_gen (t_gen k) fa' st))) (snd (over t k true (set_gen (t_gen k) fa' st)))
| e_enter t k d f fa fa' execs : nth_error (tasks st) t = Some k -> (l = LStat t true /\ t_phase k = WStat d f /\ f_execs fa = Some execs /\ f_execs fa' = f_execs fa
        \/ l = LBoot t (Some execs) /\ t_phase k = WBoot d f /\ f_execs fa' = Some execs) ->
    nth_error (gens st) (t_gen k) = Some fa -> ~ In f (f_spaces fa) -> is_move_document d = true -> f_spaces fa' = f_spaces fa ++ [f] ->
    effect st l (set_task t (Task (t_gen k) (t_activates k) (WMeta f (snd execs) (fst execs))) (set_gen (t_gen k) fa' st)) []
| e_start t k f s d r a : l = LMeta t r a -> nth_error (tasks st) t = Some k -> t_phase k = WMeta f s d ->
    effect st l (set_task t (Task (t_gen k) (t_activates k) (WStart f s d)) st) []
| e_refused t k f s d fa' e a : l = LMeta t (NoMetadata e) a -> nth_error (tasks st) t = Some k -> t_phase k = WStart f s d ->
    (exists fa, nth_error (gens st) (t_gen k) = Some fa /\ f_spaces fa' = f_spaces fa /\ f_execs fa' = f_execs fa) ->
    effect st l (fst (over t k true (set_gen (t_gen k) fa' st))) (OInvalid e :: snd (over t k true (set_gen (t_gen k) fa' st)))
| e_client t k f s d fa' m a st' : l = LMeta t (IsMetadata m) a -> nth_error (tasks st) t = Some k -> t_phase k = WStart f s d ->
    (exists fa, nth_error (gens st) (t_gen k) = Some fa /\ f_spaces fa' = f_spaces fa /\ f_execs fa' = f_execs fa) ->
    st' = fst (over t k true (set_gen (t_gen k) fa' st)) ->
    effect st l (State (gens st') (subs st') (tasks st') (clients st' ++ [Client (t_gen k) f true]))
      (OStart f s d (init_options m) :: snd (over t k true (set_gen (t_gen k) fa' st)))
| e_checked t k p o : nth_error (tasks st) t = Some k -> (exists f rest, t_phase k = WCheckBoot f rest \/ t_phase k = WCheckMeta f rest) ->
    (exists f rest, p = WCheckMeta f rest) \/ p = WOver \/ (exists files, p = begin_check files) ->
    (o = [] \/ exists e, o = [OInvalid e]) ->
    effect st l (set_task t (Task (t_gen k) (t_activates k) p) st) o.
Lemma update_update {A} n (x y : A) l : update n x (update n y l) = update n x l.
Proof. revert n. induction l as [|z l IH]; intros [|n]; cbn; f_equal; auto. Qed.
Lemma set_gen_twice g x y st : set_gen g x (set_gen g y st) = set_gen g x st.
Proof. unfold set_gen. cbn [gens subs tasks clients]. rewrite update_update. reflexivity. Qed.
Lemma update_same {A} n (x : A) l : nth_error l n = Some x -> update n x l = l.
Proof. revert n. induction l as [|z l IH]; intros [|n] H; cbn in *; try discriminate; [congruence|f_equal; auto]. Qed.
Lemma set_gen_same g x st : nth_error (gens st) g = Some x -> set_gen g x st = st.
Proof. intros H. unfold set_gen. rewrite (update_same _ _ _ H). destruct st; reflexivity. Qed.
Lemma effect_eq st l x o st' o' : effect st l x o -> x = st' -> o = o' -> effect st l st' o'.
Proof. intros H <- <-. exact H. Qed.

Lemma step_effect s st l st' o : shape s st -> step st l = Some (st', o) -> effect st l st' o.
Proof.
  intros SH ST.
  assert (LAST : s <> Idle -> gens st <> []) by (intros N X; apply N; apply (sh_idle _ _ SH); exact X).
  assert (EVENT : forall st' o, deliver_all l (subs st) st = (st', o) ->
     (exists d, l = LEditor d) \/ (exists d, l = LSave d) \/ (exists b fs, l = LFiles b fs) \/ (exists b a, l = LSettings b a) -> effect st l st' o).
  { clear ST st' o. intros st' o D EV. assert (CASES : s = Idle \/ (s = Running \/ s = Bad) \/ s = Good) by (destruct s; auto).
    destruct CASES as [I|[I|I]].
    - destruct (sh_none _ _ SH I) as (E & _). rewrite E in D. injection D as <- <-. apply e_nothing.
    - assert (NI : s <> Idle) by (destruct I; congruence). rewrite (sh_early _ _ SH I), deliver_early in D.
      destruct EV as [[d ->]|[[d ->]|[(b & fs & ->)|(b & a & ->)]]].
      + rewrite init_cases in D. destruct d as [d|]; cbn [asks] in D; [destruct (d_folder d) as [f|] eqn:F|]; injection D as <- <-; try apply e_nothing.
        apply e_init; auto.
      + destruct (is_dove_toml d); [|injection D as <- <-; apply e_nothing]. rewrite init_cases in D. cbn [asks] in D.
        destruct (d_folder d) as [f|] eqn:F; injection D as <- <-; [|apply e_nothing]. apply e_init; auto.
      + injection D as <- <-. apply e_nothing.
      + injection D as <- <-. apply e_nothing.
    - assert (NI : s <> Idle) by congruence. rewrite (sh_full _ _ SH I), deliver_full in D.
      destruct EV as [[d ->]|[[d ->]|[(b & fs & ->)|(b & a & ->)]]].
      + rewrite init_cases in D. destruct d as [d|]; cbn [asks] in D; [destruct (d_folder d) as [f|] eqn:F|]; injection D as <- <-; try apply e_nothing.
        apply e_init; auto.
      + assert (J : effect st (LSave d) (add_task (Task (pred (length (gens st))) false (begin_check [d])) st) []).
        { apply (e_check st (LSave d) [d]); [auto|]. left. split; [reflexivity|discriminate]. }
        cbv zeta in D. destruct (is_dove_toml d); [|injection D as <- <-; exact J]. rewrite init_cases in D. cbn [asks] in D.
        destruct (d_folder d) as [f|] eqn:F; injection D as <- <-; [|exact J]. eapply e_both; eauto.
      + injection D as <- <-. apply e_check; eauto.
      + destruct b; [|injection D as <- <-; apply e_nothing].
        eapply effect_eq; [apply (e_reload st _ a 0 (tasks st)); auto| |]; destruct st as [gs ss ts cs]; cbn [gens subs tasks clients] in *; rewrite D; reflexivity. }
  destruct l as [a|d|d|b files|b a|a|t b|t r|t r a]; cbn [step] in ST.
  - destruct (gens st) eqn:E; [|discriminate]. injection ST as ST. eapply effect_eq; [apply (e_activate st _ a); auto| |]; rewrite ST; reflexivity.
  - injection ST as ST. apply EVENT; eauto.
  - injection ST as ST. apply EVENT; eauto.
  - injection ST as ST. apply EVENT; eauto 6.
  - injection ST as ST. apply EVENT; eauto 6.
  - injection ST as ST. eapply effect_eq; [apply (e_reload st _ a 0 (tasks st)); auto| |]; destruct st as [gs ss ts cs]; cbn [gens subs tasks clients] in *; rewrite ST; reflexivity.
  - destruct (nth_error (tasks st) t) as [[g ac p]|] eqn:T; [|discriminate]. destruct p; try discriminate.
    destruct b.
    + destruct (nth_error (gens st) g) as [fa|] eqn:G; cbn [option_map] in ST.
      * destruct (f_execs fa) as [execs|] eqn:X.
        -- injection ST as ST. unfold enter in ST. cbn [t_gen t_activates] in ST. rewrite G in ST. destruct (mem f (f_spaces fa)) eqn:M.
           ++ rewrite X in ST. eapply effect_eq; [eapply (e_known st _ t (Task g ac (WStat d f)) d f fa (Factory (Some execs) (f_spaces fa) (Some f)) execs); cbn; auto; try (rewrite X; auto) | |]; cbn [t_gen]; rewrite ST; reflexivity.
           ++ destruct (is_move_document d) eqn:MD.
              ** injection ST as <- <-. eapply (e_enter st _ t (Task g ac (WStat d f)) d f fa _ execs); [exact T| |exact G| |exact MD|reflexivity].
                 --- left. split; [reflexivity|]. split; [reflexivity|]. split; [exact X|]. cbn. congruence.
                 --- intros I. apply mem_spec in I. congruence.
              ** eapply effect_eq; [eapply (e_known st _ t (Task g ac (WStat d f)) d f fa fa execs); cbn; auto | |]; cbn [t_gen]; rewrite (set_gen_same _ _ _ G), ST; reflexivity.
        -- injection ST as <- <-. eapply (e_boot st _ t (Task g ac (WStat d f))); auto.
      * injection ST as <- <-. eapply (e_boot st _ t (Task g ac (WStat d f))); auto.
    + injection ST as ST. eapply effect_eq; [apply (e_over st _ t (Task g ac (WStat d f)) true T); left; exists d, f; auto| |]; rewrite ST; reflexivity.
  - destruct (nth_error (tasks st) t) as [[g ac p]|] eqn:T; [|discriminate]. destruct p; try discriminate.
    + destruct r as [execs|].
      * destruct (nth_error (gens st) g) as [fa|] eqn:G; [|discriminate]. injection ST as ST.
        unfold enter in ST. cbn [t_gen t_activates] in ST. cbn [set_gen gens] in ST. rewrite (nth_update_same _ _ _ _ G) in ST.
        cbn [f_spaces f_execs f_active] in ST. fold (set_gen g (Factory (Some execs) (f_spaces fa) (f_active fa)) st) in ST. 
        rewrite !set_gen_twice in ST. destruct (mem f (f_spaces fa)) eqn:M.
        -- eapply effect_eq; [eapply (e_known st _ t (Task g ac (WBoot d f)) d f fa (Factory (Some execs) (f_spaces fa) (Some f)) execs); cbn; auto | |]; cbn [t_gen]; rewrite ST; reflexivity.
        -- destruct (is_move_document d) eqn:MD.
           ++ injection ST as <- <-. eapply (e_enter st _ t (Task g ac (WBoot d f)) d f fa _ execs); [exact T|right; auto|exact G| |exact MD|reflexivity].
              intros I. apply mem_spec in I. congruence.
           ++ eapply effect_eq; [eapply (e_known st _ t (Task g ac (WBoot d f)) d f fa (Factory (Some execs) (f_spaces fa) (f_active fa)) execs); cbn; auto | |]; cbn [t_gen]; rewrite ST; reflexivity.
      * injection ST as ST. eapply effect_eq; [apply (e_over st _ t (Task g ac (WBoot d f)) false T); right; left; exists d, f; auto| |]; rewrite ST; reflexivity.
    + destruct r; injection ST as <- <-; eapply (e_checked st _ t (Task g ac (WCheckBoot f rest))); cbn; eauto.
  - destruct (nth_error (tasks st) t) as [[g ac p]|] eqn:T; [|discriminate]. destruct p; try discriminate.
    + destruct r; [|injection ST as <- <-; eapply (e_start st _ t (Task g ac (WMeta f server dove))); cbn; eauto..].
      injection ST as ST. eapply effect_eq; [apply (e_over st _ t (Task g ac (WMeta f server dove)) false T); right; right; exists f, server, dove, a; auto| |]; rewrite ST; reflexivity.
    + destruct (nth_error (gens st) g) as [fa|] eqn:G.
      2:{ exfalso. apply nth_error_None in G. pose proof (sh_gen _ _ SH _ _ T) as L. cbn in L. lia. }
      destruct r.
      * injection ST as ST. eapply effect_eq; [apply (e_over st _ t (Task g ac (WStart f server dove)) false T); right; right; exists f, server, dove, a; auto| |]; rewrite ST; reflexivity.
      * destruct (over t _ true _) as [st1 o1] eqn:O. injection ST as <- <-.
        eapply effect_eq; [eapply (e_refused st _ t (Task g ac (WStart f server dove)) f server dove (Factory (f_execs fa) (f_spaces fa) (Some f))); cbn; eauto| |];
          cbn [t_gen]; rewrite O; reflexivity.
      * destruct (over t _ true _) as [st1 o1] eqn:O. injection ST as <- <-.
        eapply effect_eq; [eapply (e_client st _ t (Task g ac (WStart f server dove)) f server dove (Factory (f_execs fa) (f_spaces fa) (Some f))); cbn; eauto| |];
          cbn [t_gen]; rewrite O; reflexivity.
    + destruct r.
      * injection ST as <- <-; eapply (e_checked st _ t (Task g ac (WCheckMeta f rest))); cbn; eauto.
      * injection ST as <- <-; eapply (e_checked st _ t (Task g ac (WCheckMeta f rest))); cbn; eauto 6.
      * injection ST as ST. eapply effect_eq; [apply (e_reload st _ a t (update t (Task g ac (begin_check rest)) (tasks st)))| |].
        -- right. right. eauto.
        -- right. exists (Task g ac (WCheckMeta f rest)), f, rest. auto.
        -- unfold set_task in ST. rewrite ST. reflexivity.
        -- unfold set_task in ST. rewrite ST. reflexivity.
Qed.

Lemma set_gen_shape s st g x : shape s st -> shape s (set_gen g x st).
Proof. intros H. apply shape_gens; [exact H|apply update_length]. Qed.
Lemma not_over_check k f rest : t_phase k = WCheckBoot f rest \/ t_phase k = WCheckMeta f rest -> t_phase k <> WOver.
Proof. intros [E|E]; rewrite E; discriminate. Qed.
Lemma effect_shape s st l st' o : shape s st -> effect st l st' o -> shape (fold_left lives o s) st'.
Proof.
  intros H E. destruct E.
  - exact H.
  - apply (sh_idle _ _ H) in H1. destruct (sh_none _ _ H H1) as (A & B & C). apply activate_shape; [exact A| |].
    + intros i (k & K & _). rewrite B in K. destruct i; discriminate.
    + intros i k K. rewrite B in K. destruct i; discriminate.
  - apply reload_shape. destruct H1 as [->|(k & f & rest & T & P & ->)]; [destruct st; exact H|].
    apply (shape_task s st t k (begin_check rest) H T). rewrite P. discriminate.
  - apply shape_add; [exact H|]. intros X. apply (sh_idle _ _ H) in X. contradiction.
  - apply shape_add; [exact H|]. intros X. apply (sh_idle _ _ H) in X. contradiction.
  - assert (N : s <> Idle) by (intros X; apply (sh_idle _ _ H) in X; contradiction). cbn [fold_left].
    pose proof (shape_add _ _ (WStat d f) H N) as H1'. exact (shape_add _ _ (begin_check [d]) H1' N).
  - apply (shape_task s st t k); [exact H|assumption|]. congruence.
  - destruct (over_cases s st t k ok H H0) as (o & E & _ & S).
    { destruct H1 as [(d & f & -> & _)|[(d & f & -> & _)|(f & a & d & ? & [-> | ->] & _)]]; discriminate. }
    rewrite E in *. cbn [fst snd] in *. exact S.
  - destruct (over_cases s (set_gen (t_gen k) fa' st) t k true (set_gen_shape _ _ _ _ H) H0) as (o & E & _ & S).
    { destruct H1 as [[_ ->]|[_ ->]]; discriminate. }
    rewrite E in *. cbn [fst snd] in *. exact S.
  - cbn [fold_left]. apply (shape_task s (set_gen (t_gen k) fa' st) t k); [apply set_gen_shape; exact H|exact H0|].
    destruct H1 as [(_ & -> & _)|(_ & -> & _)]; discriminate.
  - apply (shape_task s st t k); [exact H|assumption|]. congruence.
  - destruct (over_cases s (set_gen (t_gen k) fa' st) t k true (set_gen_shape _ _ _ _ H) H1) as (o & E & _ & S); [congruence|].
    rewrite E in *. cbn [fst snd fold_left lives] in *. exact S.
  - destruct (over_cases s (set_gen (t_gen k) fa' st) t k true (set_gen_shape _ _ _ _ H) H1) as (o & E & O & S); [congruence|].
    rewrite E in *. cbn [fst snd fold_left lives] in *. subst st'. apply shape_clients; [exact S|].
    pose proof (task_gens _ _ _ _ H H1) as N. subst o. destruct (t_activates k); cbn; [discriminate|exact N].
  - assert (S : fold_left lives o s = s) by (destruct H3 as [->|[e ->]]; reflexivity). rewrite S.
    apply (shape_task s st t k); [exact H|assumption|]. destruct H1 as (f & rest & P). eapply not_over_check; exact P.
Qed.
Lemma shape_init : shape Idle init_state.
Proof.
  constructor; cbn; try tauto; try congruence; try (intros [|i] k X; discriminate).
  - intros [X|X]; discriminate.
  - intros i (k & K & _); destruct i; discriminate.
  - intros i j (k & K & _); destruct i; discriminate.
Qed.
Lemma run_shape h st os : run init_state h = Some (st, os) -> shape (life_of (concat os)) st.
Proof.
  revert st os. induction h as [|l h IH] using rev_ind; intros st os R.
  - injection R as <- <-. exact shape_init.
  - apply run_snoc in R as (st1 & os1 & o & R & S & ->). rewrite concat_snoc, life_app.
    eapply effect_shape; [eapply IH; exact R|]. eapply step_effect; [eapply IH; exact R|exact S].
Qed.
(** A property of states and outputs kept by effects holds of all runs *)
Lemma run_invariant (P : list label -> list output -> state -> Prop) :
  P [] [] init_state ->
  (forall h O st l st' o, P h O st -> shape (life_of O) st -> step st l = Some (st', o) -> effect st l st' o -> P (h ++ [l]) (O ++ o) st') ->
  forall h st os, run init_state h = Some (st, os) -> P h (concat os) st.
Proof.
  intros B IND h. induction h as [|l h IH] using rev_ind; intros st os R.
  - injection R as <- <-. exact B.
  - apply run_snoc in R as (st1 & os1 & o & R & S & ->). rewrite concat_snoc. pose proof (run_shape _ _ _ R) as SH.
    eapply IND; [eapply IH; exact R|exact SH|exact S|]. eapply step_effect; eassumption.
Qed.

(** ** One server for each folder and activation *)
Definition starting (g : nat) (f : text) (k : task) : bool :=
  Nat.eqb (t_gen k) g && match t_phase k with WMeta f' _ _ | WStart f' _ _ => text_eqb f' f | _ => false end.
Definition owned (g : nat) (f : text) (c : client) : bool := Nat.eqb (c_gen c) g && text_eqb (c_folder c) f.
Definition spaces_of (st : state) (g : nat) : list text := match nth_error (gens st) g with Some fa => f_spaces fa | None => [] end.
Definition number (st : state) (g : nat) (f : text) : nat := cnt (starting g f) (tasks st) + cnt (owned g f) (clients st).
Definition single (st : state) : Prop :=
  forall g f, number st g f <= 1 /\ (0 < number st g f -> In f (spaces_of st g)).

Lemma starting_phase g f k p : starting g f (Task (t_gen k) (t_activates k) p) =
  Nat.eqb (t_gen k) g && match p with WMeta f' _ _ | WStart f' _ _ => text_eqb f' f | _ => false end.
Proof. reflexivity. Qed.
Definition idle_phase (p : phase) : Prop := match p with WMeta _ _ _ | WStart _ _ _ => False | _ => True end.
Lemma starting_idle g f k : idle_phase (t_phase k) -> starting g f k = false.
Proof. unfold starting. destruct (t_phase k); cbn; intros H; try contradiction; apply andb_false_r. Qed.
Lemma begin_check_idle files : idle_phase (begin_check files).
Proof. induction files as [|d r IH]; cbn; [exact I|]. destruct (is_dove_toml d), (d_folder d); cbn; auto. Qed.
Lemma spaces_update st g g' x fa : nth_error (gens st) g = Some fa ->
  match nth_error (update g x (gens st)) g' with Some fa => f_spaces fa | None => [] end
  = if Nat.eqb g g' then f_spaces x else spaces_of st g'.
Proof.
  intros G. destruct (Nat.eqb g g') eqn:E.
  - apply Nat.eqb_eq in E as <-. rewrite (nth_update_same _ _ _ _ G). reflexivity.
  - apply Nat.eqb_neq in E. rewrite nth_update_other by exact E. reflexivity.
Qed.
(** Changes of tasks that count no more than before, and no loss of spaces *)
Lemma single_mono st st' : single st -> (forall g f, number st' g f <= number st g f) ->
  (forall g, incl (spaces_of st g) (spaces_of st' g)) -> single st'.
Proof.
  intros S N I g f. destruct (S g f) as [A B]. specialize (N g f). split; [lia|]. intros P. apply I. apply B. lia.
Qed.
Lemma number_update st t k p gs ss : nth_error (tasks st) t = Some k ->
  (idle_phase p \/ exists f s d, t_phase k = WMeta f s d /\ p = WStart f s d) ->
  forall g f, number (State gs ss (update t (Task (t_gen k) (t_activates k) p) (tasks st)) (clients st)) g f <= number st g f.
Proof.
  intros T P g f. unfold number. cbn [tasks clients].
  pose proof (cnt_update (starting g f) t k (Task (t_gen k) (t_activates k) p) (tasks st) T) as C.
  assert (bn (starting g f (Task (t_gen k) (t_activates k) p)) <= bn (starting g f k)).
  { destruct P as [P|(f' & s & d & E & ->)].
    - rewrite starting_idle by exact P. cbn. lia.
    - unfold starting. rewrite E. cbn [t_gen t_phase]. lia. }
  lia.
Qed.
Lemma number_add st g0 p gs ss cs : idle_phase p -> (forall g f, cnt (owned g f) cs = cnt (owned g f) (clients st)) -> forall ac g f,
  number (State gs ss (tasks st ++ [Task g0 ac p]) cs) g f = number st g f.
Proof.
  intros P C ac g f. unfold number. cbn [tasks clients]. rewrite cnt_app, cnt_one, starting_idle, C by exact P. cbn. lia.
Qed.
Lemma disposed_owned st g0 g f : cnt (owned g f) (disposed st g0) = cnt (owned g f) (clients st).
Proof.
  unfold disposed. destruct (nth_error (gens st) g0); [|reflexivity]. apply cnt_map. intros c. destruct (stops _ _ c); reflexivity.
Qed.
Lemma reload_number s st a : shape s st -> 
  (forall g f, number (fst (reload a st)) g f = number st g f) /\ forall g, g < length (gens st) -> nth_error (gens (fst (reload a st))) g = nth_error (gens st) g.
Proof.
  intros H. destruct (reload_cases s st a H) as [[G ->]|[_ ->]]; [|auto]. cbv zeta. cbn [fst]. rewrite activate_cases by reflexivity.
  cbv zeta. cbn [gens tasks clients]. split.
  - intros g f. destruct (asks a) as [[d f']|]; cbn [fst].
    + apply number_add; [exact I|]. intros; apply disposed_owned.
    + unfold number. cbn [tasks clients]. rewrite disposed_owned. reflexivity.
  - intros g L. destruct (asks a) as [[d f']|]; cbn [fst gens]; apply nth_error_app1; exact L.
Qed.
Lemma single_step s st l st' o : shape s st -> single st -> effect st l st' o -> single st'.
Proof.
  intros SH S E. 
  assert (OV : forall t k ok fa', nth_error (tasks st) t = Some k -> t_phase k <> WOver ->
     (exists fa, nth_error (gens st) (t_gen k) = Some fa /\ f_spaces fa' = f_spaces fa) ->
     let st1 := fst (over t k ok (set_gen (t_gen k) fa' st)) in
     gens st1 = update (t_gen k) fa' (gens st) /\ tasks st1 = update t (Task (t_gen k) (t_activates k) WOver) (tasks st) /\ clients st1 = clients st
     /\ single st1).
  { intros t k ok fa' T P (fa & G & SP). destruct (over_cases s (set_gen (t_gen k) fa' st) t k ok (set_gen_shape _ _ _ _ SH) T P) as (o1 & E1 & _ & _).
    rewrite E1. cbv zeta. cbn [fst set_gen gens tasks clients]. split; [reflexivity|]. split; [reflexivity|]. split; [reflexivity|].
    eapply single_mono; [exact S| |].
    - intros g f. apply (number_update st t k WOver _ _ T). left. exact I.
    - intros g x X. unfold spaces_of at 1. cbn [gens]. rewrite (spaces_update st _ g fa' fa G).
      destruct (Nat.eqb (t_gen k) g) eqn:EQ; [|exact X]. apply Nat.eqb_eq in EQ as <-. rewrite SP. unfold spaces_of in X. rewrite G in X. exact X. }
  destruct E.
  - exact S.
  - destruct (sh_none _ _ SH (proj2 (sh_idle _ _ SH) H0)) as (A & B & C). rewrite activate_cases by exact A. cbv zeta.
    intros g f. destruct (asks a) as [[d f']|]; cbn [fst].
    + rewrite (number_add st); [|exact I|reflexivity]. unfold number. rewrite B, C. cbn. lia.
    + unfold number. cbn [tasks clients]. rewrite B, C. cbn. lia.
  - set (st1 := State _ _ _ _).
    assert (S1 : single st1 /\ shape s st1).
    { destruct H0 as [->|(k & f & rest & T & P & ->)]; [unfold st1; destruct st; auto|]. split.
      - eapply single_mono; [exact S| |].
        + apply (number_update st t k); [exact T|]. left. apply begin_check_idle.
        + intros g x X. exact X.
      - apply (shape_task s st t k (begin_check rest) SH T). rewrite P. discriminate. }
    destruct S1 as [S1 SH1]. destruct (reload_number s st1 a SH1) as [N G].
    intros g f. rewrite N. destruct (S1 g f) as [A B]. split; [exact A|]. intros P. specialize (B P).
    unfold spaces_of in *. destruct (nth_error (gens st1) g) as [fa|] eqn:X; [|destruct B].
    rewrite G, X; [exact B|]. apply nth_error_Some. congruence.
  - intros g f'. unfold add_task. rewrite (number_add st); [|exact I|reflexivity]. exact (S g f').
  - intros g f'. unfold add_task. rewrite (number_add st); [|apply begin_check_idle|reflexivity]. exact (S g f').
  - intros g f'. unfold add_task. cbn [gens subs tasks clients].
    rewrite (number_add (State (gens st) (subs st) (tasks st ++ [Task (pred (length (gens st))) false (WStat d f)]) (clients st)));
      [|apply begin_check_idle|reflexivity]. rewrite (number_add st); [|exact I|reflexivity]. exact (S g f').
  - eapply single_mono; [exact S| |intros g x X; exact X]. apply (number_update st t k); [assumption|]. left. exact I.
  - assert (P : t_phase k <> WOver) by (destruct H0 as [(d & f & -> & _)|[(d & f & -> & _)|(f & a & d & ? & [-> | ->] & _)]]; discriminate).
    destruct (nth_error (gens st) (t_gen k)) as [fa|] eqn:G.
    + rewrite <- (set_gen_same _ _ _ G). eapply OV; eauto.
    + apply nth_error_None in G. pose proof (sh_gen _ _ SH _ _ H). lia.
  - assert (P : t_phase k <> WOver) by (destruct H0 as [[_ ->]|[_ ->]]; discriminate). eapply OV; eauto.
  - (* a workspace is entered *)
    assert (P : idle_phase (t_phase k)) by (destruct H0 as [(_ & -> & _)|(_ & -> & _)]; exact I).
    intros g f'. unfold number. cbn [set_task set_gen tasks clients].
    pose proof (cnt_update (starting g f') t k (Task (t_gen k) (t_activates k) (WMeta f (snd execs) (fst execs))) (tasks st) H) as C.
    rewrite (starting_idle g f' k P) in C. rewrite starting_phase in C. destruct (S g f') as [A B].
    unfold spaces_of. cbn [set_task set_gen gens]. rewrite (spaces_update st _ g fa' fa H1). unfold number in A, B.
    destruct (Nat.eqb (t_gen k) g) eqn:EG; cbn [andb] in C.
    + apply Nat.eqb_eq in EG as <-. rewrite H4. assert (SPK : spaces_of st (t_gen k) = f_spaces fa) by (unfold spaces_of; rewrite H1; reflexivity).
      rewrite SPK in B. destruct (text_eqb f f') eqn:EF; cbn in C.
      * apply text_eqb_eq in EF as <-. split; [|intros _; apply in_or_app; right; left; reflexivity].
        destruct (cnt (starting (t_gen k) f) (tasks st) + cnt (owned (t_gen k) f) (clients st)) as [|n] eqn:Z; [lia|].
        exfalso. apply H2. apply B. lia.
      * split; [lia|]. intros L. apply in_or_app. left. apply B. lia.
    + cbn in C. split; [lia|]. intros L. apply B. lia.
  - eapply single_mono; [exact S| |intros g x X; exact X]. apply (number_update st t k); [assumption|]. right. eauto.
  - destruct H2 as (fa & G & SP & _). eapply OV; eauto. congruence.
  - (* a client is started *)
    destruct H2 as (fa & G & SP & _).
    assert (PO : t_phase k <> WOver) by congruence.
    destruct (OV t k true fa' H0 PO (ex_intro _ fa (conj G SP))) as (EG & ET & EC & _). rewrite <- H3 in EG, ET, EC.
    intros g f'. unfold number. cbn [tasks clients]. rewrite ET, EC, cnt_app, cnt_one.
    pose proof (cnt_update (starting g f') t k (Task (t_gen k) (t_activates k) WOver) (tasks st) H0) as C.
    rewrite (starting_idle g f' (Task (t_gen k) (t_activates k) WOver)) in C by exact I. destruct (S g f') as [A B]. unfold number in A, B.
    assert (OE : owned g f' (Client (t_gen k) f true) = starting g f' k) by (unfold owned, starting; rewrite H1; reflexivity).
    rewrite OE. cbn [bn] in C.
    assert (SPG : forall ts cs, spaces_of (State (gens st') (subs st') ts cs) g = spaces_of st g).
    { intros ts cs. unfold spaces_of at 1. cbn [gens]. rewrite EG, (spaces_update st _ g fa' fa G). destruct (Nat.eqb (t_gen k) g) eqn:EQ; [|reflexivity].
      apply Nat.eqb_eq in EQ as <-. unfold spaces_of. rewrite G. exact SP. }
    rewrite SPG. split; [lia|]. intros L. apply B. lia.
  - eapply single_mono; [exact S| |intros g x X; exact X]. apply (number_update st t k); [assumption|]. left.
    destruct H1 as [(f & rest & ->)|[->|(files & ->)]]; [exact I|exact I|apply begin_check_idle].
Qed.

(** ** Servers and outputs *)
Record tally (O : list output) (st : state) : Prop := {
  ta_servers : map c_folder (clients st) = fservers O;
  ta_once : NoDup (fstopped O);
  ta_alive : forall n c, nth_error (clients st) n = Some c -> (c_alive c = false <-> In n (fstopped O));
  ta_known : forall n, In n (fstopped O) -> n < length (clients st);
  ta_acts : length (gens st) = facts O;
  ta_gens : forall n c, nth_error (clients st) n = Some c -> c_gen c < length (gens st) }.

Lemma stopped_ids_in g sp b l n : In n (fstopped (stopped_ids g sp b l)) <->
  b <= n /\ exists c, nth_error l (n - b) = Some c /\ stops g sp c = true /\ c_alive c = true.
Proof.
  revert b. induction l as [|c l IH]; intros b; cbn [stopped_ids].
  - cbn. split; [tauto|]. intros (_ & c & H & _). destruct (n - b); discriminate.
  - rewrite stopped_app, in_app_iff, IH. split.
    + intros [H|(L & c' & N & SA)].
      * destruct (stops g sp c && c_alive c) eqn:E; cbn in H; [|tauto]. destruct H as [<-|[]]. apply andb_true_iff in E.
        split; [lia|]. rewrite Nat.sub_diag. exists c. auto.
      * split; [lia|]. exists c'. destruct (n - b) as [|m] eqn:D; [lia|]. cbn [nth_error]. replace (n - S b) with m in N by lia. auto.
    + intros (L & c' & N & SA). destruct (n - b) as [|m] eqn:D.
      * left. cbn in N. injection N as ->. assert (n = b) as -> by lia. rewrite (proj1 SA), (proj2 SA). cbn. auto.
      * right. split; [lia|]. exists c'. cbn [nth_error] in N. replace (n - S b) with m by lia. auto.
Qed.
Lemma stopped_ids_nodup g sp b l : NoDup (fstopped (stopped_ids g sp b l)).
Proof.
  revert b. induction l as [|c l IH]; intros b; cbn [stopped_ids]; [constructor|]. rewrite stopped_app.
  destruct (_ && _); cbn; [|apply IH]. constructor; [|apply IH]. intros H. apply stopped_ids_in in H. lia.
Qed.
Lemma stopped_ids_quiet g sp b l : fservers (stopped_ids g sp b l) = [] /\ facts (stopped_ids g sp b l) = 0.
Proof.
  revert b. induction l as [|c l IH]; intros b; cbn [stopped_ids]; [auto|]. rewrite servers_app, acts_app.
  destruct (IH (S b)) as [-> ->]. destruct (_ && _); auto.
Qed.
Lemma NoDup_app_intro {A} (a b : list A) : NoDup a -> NoDup b -> (forall x, In x a -> ~ In x b) -> NoDup (a ++ b).
Proof.
  intros NA NB D. induction NA as [|x a X NA IH]; [exact NB|]. cbn. constructor.
  - rewrite in_app_iff. intros [Y|Y]; [contradiction|]. exact (D x (or_introl eq_refl) Y).
  - apply IH. intros y Y. apply D. right. exact Y.
Qed.
(** An output that starts, stops and activates nothing *)
Definition mute (o : list output) : Prop := fservers o = [] /\ fstopped o = [] /\ facts o = 0.
Lemma tally_mute O st o st' : tally O st -> mute o -> clients st' = clients st -> length (gens st') = length (gens st) -> tally (O ++ o) st'.
Proof.
  intros [A B C D E F] (S & T & U) EC EG. constructor; rewrite ?EC, ?EG, ?servers_app, ?stopped_app, ?acts_app, ?S, ?T, ?U, ?app_nil_r, ?Nat.add_0_r; auto.
Qed.
Lemma over_mute s st t k ok : shape s st -> nth_error (tasks st) t = Some k -> t_phase k <> WOver ->
  mute (snd (over t k ok st)) /\ gens (fst (over t k ok st)) = gens st /\ clients (fst (over t k ok st)) = clients st.
Proof.
  intros H T P. destruct (over_cases s st t k ok H T P) as (o & E & O & _). rewrite E. cbn [fst snd gens clients]. subst o.
  split; [|auto]. destruct (t_activates k), ok; repeat split.
Qed.
Lemma tally_reload s O st a : shape s st -> tally O st -> tally (O ++ snd (reload a st)) (fst (reload a st)).
Proof.
  intros SH H. destruct (reload_cases s st a SH) as [[G ->]|[_ ->]]; cbn [fst snd]; [|rewrite app_nil_r; exact H].
  cbv zeta. rewrite activate_cases by reflexivity. cbv zeta. cbn [gens tasks clients]. destruct H as [A B C D E F].
  set (g := pred (length (gens st))). set (oa := snd _).
  assert (M : fservers oa = [] /\ fstopped oa = [] /\ facts oa = 1) by (unfold oa; destruct (asks a) as [[d f]|]; repeat split).
  set (sta := fst _).
  assert (CL : clients sta = disposed st g) by (unfold sta; destruct (asks a) as [[d f]|]; reflexivity).
  assert (GL : length (gens sta) = S (length (gens st))) by (unfold sta; destruct (asks a) as [[d f]|]; cbn [fst gens]; rewrite app_length; cbn; lia).
  clearbody oa sta. destruct M as (M1 & M2 & M3).
  assert (DS : fservers (disposed_out st g) = [] /\ facts (disposed_out st g) = 0 /\ NoDup (fstopped (disposed_out st g))).
  { unfold disposed_out. destruct (nth_error (gens st) g); [|repeat split; constructor]. destruct (stopped_ids_quiet g (f_spaces f) 0 (clients st)). auto using stopped_ids_nodup. }
  destruct DS as (D1 & D2 & D3).
  assert (DI : forall n c, nth_error (clients st) n = Some c ->
     exists c', nth_error (disposed st g) n = Some c' /\ c_folder c' = c_folder c /\ c_gen c' = c_gen c /\
       (c_alive c' = false <-> c_alive c = false \/ In n (fstopped (disposed_out st g)))).
  { intros n c N. unfold disposed, disposed_out. destruct (nth_error (gens st) g) as [fa|].
    - rewrite nth_error_map, N. cbn [option_map]. eexists. split; [reflexivity|]. rewrite stopped_ids_in, Nat.sub_0_r.
      destruct (stops g (f_spaces fa) c) eqn:ST; cbn [c_folder c_gen c_alive].
      + split; [reflexivity|]. split; [reflexivity|]. split; [|reflexivity]. intros _. destruct (c_alive c) eqn:AL; [|auto].
        right. split; [lia|]. exists c. auto.
      + split; [reflexivity|]. split; [reflexivity|]. split; [auto|]. intros [X|(_ & c' & N' & S' & _)]; [exact X|]. congruence.
    - exists c. cbn. split; [exact N|]. split; [reflexivity|]. split; [reflexivity|]. tauto. }
  assert (DL : length (disposed st g) = length (clients st)) by (unfold disposed; destruct (nth_error (gens st) g); [apply map_length|reflexivity]).
  assert (DN : forall n, In n (fstopped (disposed_out st g)) -> exists c, nth_error (clients st) n = Some c /\ c_alive c = true).
  { intros n N. unfold disposed_out in N. destruct (nth_error (gens st) g); [|destruct N]. apply stopped_ids_in in N as (_ & c & N & _ & AL).
    rewrite Nat.sub_0_r in N. eauto. }
  assert (BACK : forall n c', nth_error (disposed st g) n = Some c' -> exists c, nth_error (clients st) n = Some c).
  { intros n c' N. destruct (nth_error (clients st) n) eqn:X; [eauto|]. exfalso. apply nth_error_None in X.
    assert (n < length (disposed st g)) by (apply nth_error_Some; congruence). lia. }
  change (OReloaded :: disposed_out st g ++ oa) with ([OReloaded] ++ disposed_out st g ++ oa).
  constructor; rewrite ?servers_app, ?stopped_app, ?acts_app, ?CL, ?GL, ?M1, ?M2, ?M3, ?D1, ?D2; cbn [fservers fstopped facts map concat filter app length]; rewrite ?app_nil_r.
  - rewrite <- A. unfold disposed. destruct (nth_error (gens st) g); [|reflexivity]. rewrite map_map. apply map_ext. intros c.
    destruct (stops _ _ c); reflexivity.
  - change (NoDup (fstopped O ++ fstopped (disposed_out st g))). apply NoDup_app_intro; [exact B|exact D3|]. intros n X Y. destruct (DN n Y) as (c & N & AL).
    apply (C n c N) in X. congruence.
  - intros n c' N. change (c_alive c' = false <-> In n (fstopped O ++ fstopped (disposed_out st g))).
    destruct (BACK n c' N) as (c & K). destruct (DI n c K) as (c2 & N2 & _ & _ & AL). rewrite N in N2. injection N2 as <-.
    rewrite AL, in_app_iff, (C n c K). reflexivity.
  - intros n N. change (In n (fstopped O ++ fstopped (disposed_out st g))) in N. rewrite DL. apply in_app_iff in N as [N|N]; [auto|].
    destruct (DN n N) as (c & K & _). apply nth_error_Some. congruence.
  - rewrite E. cbn. lia.
  - intros n c' N. destruct (BACK n c' N) as (c & K). destruct (DI n c K) as (c2 & N2 & _ & GE & _). rewrite N in N2. injection N2 as <-.
    rewrite GE. apply F in K. lia.
Qed.
Lemma tally_step s O st l st' o : shape s st -> tally O st -> effect st l st' o -> tally (O ++ o) st'.
Proof.
  intros SH H E. assert (MN : mute []) by (repeat split).
  assert (OV : forall t k ok fa', nth_error (tasks st) t = Some k -> t_phase k <> WOver ->
     let r := over t k ok (set_gen (t_gen k) fa' st) in mute (snd r) /\ length (gens (fst r)) = length (gens st) /\ clients (fst r) = clients st).
  { intros t k ok fa' T P. destruct (over_mute s (set_gen (t_gen k) fa' st) t k ok (set_gen_shape _ _ _ _ SH) T P) as (A & B & C).
    cbv zeta. split; [exact A|]. rewrite B, C. cbn. rewrite update_length. auto. }
  destruct E.
  - rewrite app_nil_r. exact H.
  - destruct (sh_none _ _ SH (proj2 (sh_idle _ _ SH) H1)) as (A & B & C). rewrite activate_cases by exact A. cbv zeta. rewrite H1, C.
    destruct H as [TA TB TC TD TE TF]. rewrite C in TA. rewrite H1 in TE.
    assert (ST : fstopped O = []).
    { destruct (fstopped O) as [|n r] eqn:X; [reflexivity|]. exfalso. specialize (TD n (or_introl eq_refl)). rewrite C in TD. cbn in TD. lia. }
    assert (F0 : fservers O = []) by (rewrite <- TA; reflexivity).
    assert (A0 : facts O = 0) by (rewrite <- TE; reflexivity).
    destruct (asks a) as [[d f]|]; cbn [fst snd]; split; rewrite ?servers_app, ?stopped_app, ?acts_app, ?ST, ?F0, ?A0;
      try reflexivity; try (intros [|n] c X; discriminate X); try (intros n []); apply NoDup_nil.
  - assert (S1 : tally O (State (gens st) (subs st) ts (clients st)) /\ shape s (State (gens st) (subs st) ts (clients st))).
    { destruct H1 as [->|(k & f & rest & T & P & ->)]; [destruct st; auto|]. split.
      - destruct H as [TA TB TC TD TE TF]. constructor; auto.
      - apply (shape_task s st t k (begin_check rest) SH T). rewrite P. discriminate. }
    destruct S1. eapply tally_reload; eassumption.
  - eapply tally_mute; eauto.
  - eapply tally_mute; eauto.
  - eapply tally_mute; eauto.
  - eapply tally_mute; eauto.
  - assert (P : t_phase k <> WOver) by (destruct H1 as [(d & f & -> & _)|[(d & f & -> & _)|(f & a & d & ? & [-> | ->] & _)]]; discriminate).
    destruct (over_mute s st t k ok SH H0 P) as (A & B & C). eapply tally_mute; eauto. rewrite B. reflexivity.
  - assert (P : t_phase k <> WOver) by (destruct H1 as [[_ ->]|[_ ->]]; discriminate).
    destruct (OV t k true fa' H0 P) as (A & B & C). eapply tally_mute; eauto.
  - eapply tally_mute; eauto. cbn. apply update_length.
  - eapply tally_mute; eauto.
  - assert (P : t_phase k <> WOver) by congruence. destruct (OV t k true fa' H1 P) as ((A1 & A2 & A3) & B & C). eapply tally_mute; eauto.
    change (mute ([OInvalid e] ++ snd (over t k true (set_gen (t_gen k) fa' st)))). unfold mute. rewrite servers_app, stopped_app, acts_app, A1, A2, A3. auto.
  - assert (P : t_phase k <> WOver) by congruence. destruct (OV t k true fa' H1 P) as ((A1 & A2 & A3) & B & C). cbv zeta in *. rewrite <- H4 in B, C.
    change (OStart f s0 d (init_options m) :: snd (over t k true (set_gen (t_gen k) fa' st))) with ([OStart f s0 d (init_options m)] ++ snd (over t k true (set_gen (t_gen k) fa' st))).
    destruct H as [TA TB TC TD TE TF].
    constructor; cbn [gens clients]; rewrite ?servers_app, ?stopped_app, ?acts_app, ?A1, ?A2, ?A3, ?C; cbn [fservers fstopped facts map concat filter app length]; rewrite ?app_nil_r.
    + rewrite map_app, TA. reflexivity.
    + exact TB.
    + intros n c N. apply nth_snoc_inv in N as [N|[-> ->]]; [apply TC; exact N|]. cbn. split; [discriminate|]. intros X. apply TD in X. lia.
    + intros n N. apply TD in N. rewrite app_length. lia.
    + rewrite B, TE. cbn. lia.
    + intros n c N. rewrite B. apply nth_snoc_inv in N as [N|[-> ->]]; [eapply TF; exact N|]. cbn. exact (sh_gen _ _ SH _ _ H1).
  - eapply tally_mute; eauto. destruct H3 as [->|[e ->]]; repeat split.
Qed.

(** ** Reloads when nothing is under way *)
Definition initing (p : phase) : Prop := match p with WStat _ _ | WBoot _ _ | WMeta _ _ _ | WStart _ _ _ => True | _ => False end.
Record calm (st : state) : Prop := {
  ca_tasks : forall i k, nth_error (tasks st) i = Some k -> initing (t_phase k) -> t_gen k = pred (length (gens st));
  ca_clients : forall n c, nth_error (clients st) n = Some c -> c_alive c = true -> c_gen c = pred (length (gens st)) }.
Definition ended (st : state) : Prop := forall n c, nth_error (clients st) n = Some c -> c_alive c = false.

Lemma settled_spec st : settled st <-> forall i k, nth_error (tasks st) i = Some k -> ~ initing (t_phase k).
Proof.
  unfold settled. rewrite Forall_forall. split.
  - intros H i k K. apply nth_error_In in K. specialize (H _ K). cbn beta in H. unfold initing. destruct (t_phase k); tauto.
  - intros H k K. apply In_nth_error in K as (i & K). specialize (H _ _ K). unfold initing in H. destruct (t_phase k); tauto.
Qed.
Lemma begin_check_initing files : ~ initing (begin_check files).
Proof. induction files as [|d r IH]; cbn; [tauto|]. destruct (is_dove_toml d), (d_folder d); cbn; auto. Qed.
Lemma over_silent s st t k ok : shape s st -> nth_error (tasks st) t = Some k -> t_phase k <> WOver -> ~ In OReloaded (snd (over t k ok st)).
Proof.
  intros H T P. destruct (over_cases s st t k ok H T P) as (o & E & O & _). rewrite E. cbn [snd]. subst o.
  destruct (t_activates k), ok; cbn; intuition discriminate.
Qed.
Lemma calm_task st t k p gs ss cs : calm st -> nth_error (tasks st) t = Some k -> length gs = length (gens st) ->
  (initing p -> initing (t_phase k)) ->
  (forall n c, nth_error cs n = Some c -> c_alive c = true -> c_gen c = pred (length (gens st))) ->
  calm (State gs ss (update t (Task (t_gen k) (t_activates k) p) (tasks st)) cs).
Proof.
  intros [A B] T G P C. constructor; cbn [gens tasks clients]; rewrite G; [|exact C].
  intros i k' K I. apply nth_update_inv in K as [[<- ->]|[NE K]]; [|eapply A; eassumption]. cbn in *. eapply A; eauto.
Qed.
Lemma calm_add st p ac : calm st -> calm (add_task (Task (pred (length (gens st))) ac p) st).
Proof.
  intros [A B]. constructor; cbn [add_task gens tasks clients]; [|exact B].
  intros i k K I. apply nth_snoc_inv in K as [K|[-> ->]]; [eapply A; eassumption|reflexivity].
Qed.
Lemma calm_reload s st a : shape s st -> single st -> calm st -> (In OReloaded (snd (reload a st)) -> settled st) ->
  calm (fst (reload a st)) /\ (In OReloaded (snd (reload a st)) -> ended (fst (reload a st))).
Proof.
  intros SH SI CA Q. destruct (reload_cases s st a SH) as [[G E]|[_ E]]; rewrite E in *; cbn [fst snd] in *; [|split; [exact CA|intros []]].
  specialize (Q (or_introl eq_refl)). rewrite settled_spec in Q. cbv zeta in *. rewrite activate_cases by reflexivity. cbv zeta. cbn [gens tasks clients].
  set (g := pred (length (gens st))).
  assert (DEAD : forall n c, nth_error (disposed st g) n = Some c -> c_alive c = false).
  { intros n c N. unfold disposed in N. destruct (nth_error (gens st) g) as [fa|] eqn:GG.
    - rewrite nth_error_map in N. destruct (nth_error (clients st) n) as [c0|] eqn:N0; [|discriminate]. cbn in N. injection N as <-.
      destruct (stops g (f_spaces fa) c0) eqn:ST; [reflexivity|]. destruct (c_alive c0) eqn:AL; [|reflexivity]. exfalso.
      pose proof (ca_clients _ CA _ _ N0 AL) as GE. fold g in GE.
      destruct (SI g (c_folder c0)) as [_ B]. unfold spaces_of in B. rewrite GG in B.
      unfold stops in ST. rewrite GE, Nat.eqb_refl in ST. cbn [andb] in ST.
      enough (mem (c_folder c0) (f_spaces fa) = true) by congruence. apply mem_spec. apply B. unfold number.
      enough (0 < cnt (owned g (c_folder c0)) (clients st)) by lia.
      eapply cnt_pos; [exact N0|]. unfold owned. rewrite GE, Nat.eqb_refl, text_eqb_refl. reflexivity.
    - exfalso. apply nth_error_None in GG. destruct (gens st) eqn:GS; [|unfold g in GG; cbn in GG; lia].
      apply (sh_idle _ _ SH) in GS. congruence. }
  assert (LEN : pred (length (gens st ++ [fresh_factory])) = length (gens st)) by (rewrite app_length; cbn; lia).
  destruct (asks a) as [[d f]|]; cbn [fst]; (split; [constructor; cbn [gens tasks clients]; rewrite LEN|intros _; exact DEAD]).
  - intros i k K I. apply nth_snoc_inv in K as [K|[-> ->]]; [destruct (Q i k K I)|reflexivity].
  - intros n c N AL. apply DEAD in N. congruence.
  - intros i k K I. destruct (Q i k K I).
  - intros n c N AL. apply DEAD in N. congruence.
Qed.
Lemma calm_step s st l st' o : shape s st -> single st -> calm st -> effect st l st' o -> (In OReloaded o -> settled st) ->
  calm st' /\ (In OReloaded o -> ended st').
Proof.
  intros SH SI CA E Q.
  assert (OV : forall t k ok fa', nth_error (tasks st) t = Some k -> t_phase k <> WOver ->
     let r := over t k ok (set_gen (t_gen k) fa' st) in calm (fst r) /\ ~ In OReloaded (snd r)).
  { intros t k ok fa' T P. pose proof (over_silent s (set_gen (t_gen k) fa' st) t k ok (set_gen_shape _ _ _ _ SH) T P) as S.
    destruct (over_cases s (set_gen (t_gen k) fa' st) t k ok (set_gen_shape _ _ _ _ SH) T P) as (o1 & E1 & _). cbv zeta. split; [|exact S].
    rewrite E1. cbn [fst set_gen gens tasks clients]. apply calm_task; [exact CA|exact T|apply update_length|cbn; tauto|apply (ca_clients _ CA)]. }
  assert (SG : forall k t, nth_error (tasks st) t = Some k -> exists fa, nth_error (gens st) (t_gen k) = Some fa).
  { intros k t T. destruct (nth_error (gens st) (t_gen k)) eqn:G; [eauto|]. apply nth_error_None in G. pose proof (sh_gen _ _ SH _ _ T). lia. }
  destruct E.
  - split; [exact CA|intros []].
  - destruct (sh_none _ _ SH (proj2 (sh_idle _ _ SH) H0)) as (A & B & C). rewrite activate_cases by exact A. cbv zeta. rewrite H0, B, C.
    destruct (asks a) as [[d f]|]; cbn [fst snd]; (split; [constructor; cbn|cbn; intuition discriminate]).
    + intros [|[|i]] k K; try discriminate. injection K as <-. reflexivity.
    + intros [|n] c K; discriminate.
    + intros [|n] c K; discriminate.
    + intros [|n] c K; discriminate.
  - set (st1 := State _ _ _ _) in *.
    assert (S1 : single st1 /\ shape s st1 /\ calm st1 /\ (settled st -> settled st1)).
    { destruct H0 as [->|(k & f & rest & T & P & ->)]; [unfold st1; destruct st; auto|]. split; [|split; [|split]].
      - eapply single_mono; [exact SI| |].
        + apply (number_update st t k); [exact T|]. left. apply begin_check_idle.
        + intros g x X. exact X.
      - apply (shape_task s st t k (begin_check rest) SH T). rewrite P. discriminate.
      - apply calm_task; [exact CA|exact T|reflexivity|intros X; destruct (begin_check_initing _ X)|apply (ca_clients _ CA)].
      - rewrite !settled_spec. intros S i k' K. cbn in K. apply nth_update_inv in K as [[<- ->]|[NE K]]; [apply begin_check_initing|eauto]. }
    destruct S1 as (SI1 & SH1 & CA1 & Q1). eapply calm_reload; eauto.
  - split; [apply calm_add; exact CA|intros []].
  - split; [apply calm_add; exact CA|intros []].
  - split; [|intros []]. pose proof (calm_add _ (WStat d f) false CA) as C1. exact (calm_add _ (begin_check [d]) false C1).
  - split; [|intros []]. apply calm_task; [exact CA|assumption|reflexivity|rewrite H1; cbn; tauto|apply (ca_clients _ CA)].
  - assert (P : t_phase k <> WOver) by (destruct H0 as [(d & f & -> & _)|[(d & f & -> & _)|(f & a & d & ? & [-> | ->] & _)]]; discriminate).
    destruct (SG _ _ H) as (fa & G). rewrite <- (set_gen_same _ _ _ G). destruct (OV t k ok fa H P) as [A B]. split; [exact A|contradiction].
  - assert (P : t_phase k <> WOver) by (destruct H0 as [[_ ->]|[_ ->]]; discriminate).
    destruct (OV t k true fa' H P) as [A B]. split; [exact A|contradiction].
  - split; [|intros []]. unfold set_task. cbn [set_gen gens subs tasks clients].
    apply calm_task; [exact CA|assumption|apply update_length| |apply (ca_clients _ CA)].
    destruct H0 as [(_ & -> & _)|(_ & -> & _)]; cbn; tauto.
  - split; [|intros []]. apply calm_task; [exact CA|assumption|reflexivity|rewrite H1; cbn; tauto|apply (ca_clients _ CA)].
  - assert (P : t_phase k <> WOver) by congruence. destruct (OV t k true fa' H0 P) as [A B]. split; [exact A|]. intros [X|X]; [discriminate|contradiction].
  - assert (P : t_phase k <> WOver) by congruence. destruct (OV t k true fa' H0 P) as [A B].
    split; [|intros [X|X]; [discriminate|contradiction]]. destruct (over_mute s (set_gen (t_gen k) fa' st) t k true (set_gen_shape _ _ _ _ SH) H0 P) as (_ & EG & EC).
    rewrite <- H3 in *. destruct A as [A1 A2]. constructor; cbn [gens tasks clients]; [exact A1|].
    intros n c N AL. apply nth_snoc_inv in N as [N|[-> ->]]; [eapply A2; eassumption|]. cbn. rewrite EG. cbn. rewrite update_length.
    eapply (ca_tasks _ CA); [exact H0|]. rewrite H1. exact I.
  - split; [|destruct H2 as [->|[e ->]]; cbn; intuition discriminate].
    apply calm_task; [exact CA|assumption|reflexivity| |apply (ca_clients _ CA)].
    destruct H1 as [(f & rest & ->)|[->|(files & ->)]]; cbn; try tauto. intros X. destruct (begin_check_initing _ X).
Qed.

(** ** All runs *)
Lemma run_single h st os : run init_state h = Some (st, os) -> single st.
Proof.
  apply (run_invariant (fun _ _ st => single st)).
  - intros g f. unfold number. cbn. lia.
  - intros h0 O st0 l st' o S SH _ E. eapply single_step; eassumption.
Qed.
Lemma run_tally h st os : run init_state h = Some (st, os) -> tally (concat os) st.
Proof.
  apply (run_invariant (fun _ O st => tally O st)).
  - split; try reflexivity; try (intros [|n] c X; discriminate X); try (intros n []); apply NoDup_nil.
  - intros h0 O st0 l st' o S SH _ E. eapply tally_step; eassumption.
Qed.
Lemma quiet_before h l : quiet (h ++ [l]) -> quiet h.
Proof. intros Q h1 l' h2 st os st' o -> . apply (Q h1 l' (h2 ++ [l])). rewrite <- app_assoc. reflexivity. Qed.
Lemma run_calm h st os : quiet h -> run init_state h = Some (st, os) -> calm st.
Proof.
  revert st os. induction h as [|l h IH] using rev_ind; intros st os Q R.
  - injection R as <- <-. constructor; intros [|n] c X; discriminate.
  - apply run_snoc in R as (st1 & os1 & o & R & S & ->). pose proof (run_shape _ _ _ R) as SH.
    eapply calm_step; [exact SH|eapply run_single; exact R|eapply IH; [eapply quiet_before; exact Q|exact R]|eapply step_effect; eassumption|].
    intros I. eapply (Q h l []); eauto.
Qed.
Lemma run_ended h l st os st' o : quiet (h ++ [l]) -> run init_state h = Some (st, os) -> step st l = Some (st', o) -> In OReloaded o -> ended st'.
Proof.
  intros Q R S I. pose proof (run_shape _ _ _ R) as SH.
  eapply calm_step; [exact SH|eapply run_single; exact R|eapply run_calm; [eapply quiet_before; exact Q|exact R]|eapply step_effect; eassumption| |exact I].
  intros _. eapply (Q h l []); eauto.
Qed.
Lemma runs_spec O st f n : tally O st ->
  (nth_error (fservers O) n = Some f /\ ~ In n (fstopped O)) <-> exists c, nth_error (clients st) n = Some c /\ c_folder c = f /\ c_alive c = true.
Proof.
  intros T. rewrite <- (ta_servers _ _ T), nth_error_map. destruct (nth_error (clients st) n) as [c|] eqn:N; cbn [option_map].
  - pose proof (ta_alive _ _ T _ _ N) as A. split.
    + intros [[= <-] X]. exists c. split; [reflexivity|]. split; [reflexivity|]. destruct (c_alive c); [reflexivity|]. tauto.
    + intros (c' & [= <-] & <- & AL). split; [reflexivity|]. intros X. apply A in X. congruence.
  - split; [intros [X _]; discriminate|intros (c & X & _); discriminate].
Qed.

(** ** Where servers come from *)
Definition asked (h : list label) (d : doc) (f : text) : Prop := shown h d /\ d_folder d = Some f.
Definition got (h : list label) (st : state) (g : nat) (execs : text * text) : Prop :=
  exists t k, nth_error (tasks st) t = Some k /\ t_gen k = g /\ In (LBoot t (Some execs)) h.
Definition prov (h : list label) (st : state) (t : nat) (k : task) : Prop :=
  match t_phase k with
  | WStat d f => asked h d f
  | WBoot d f => asked h d f /\ In (LStat t true) h
  | WMeta f server dove | WStart f server dove =>
      exists d, asked h d f /\ move_document d /\ In (LStat t true) h /\ got h st (t_gen k) (dove, server)
  | _ => True
  end.
Record origin (h : list label) (st : state) : Prop := {
  or_tasks : forall t k, nth_error (tasks st) t = Some k -> prov h st t k;
  or_execs : forall g fa e, nth_error (gens st) g = Some fa -> f_execs fa = Some e -> got h st g e;
  or_spaces : forall g fa f, nth_error (gens st) g = Some fa -> In f (f_spaces fa) -> exists d, asked h d f }.

Lemma shown_more h l d : shown h d -> shown (h ++ [l]) d.
Proof.
  intros [A|[A|[A|[A|[[b A]|(t & a & A)]]]]]; [left|right; left|right; right; left|right; right; right; left|right; right; right; right; left; exists b|
    right; right; right; right; right; exists t, a]; apply in_or_app; auto.
Qed.
(** The tasks keep their activations *)
Definition grows (st st' : state) : Prop :=
  forall t k, nth_error (tasks st) t = Some k -> exists k', nth_error (tasks st') t = Some k' /\ t_gen k' = t_gen k.
Lemma got_more h l st st' g e : grows st st' -> got h st g e -> got (h ++ [l]) st' g e.
Proof.
  intros G (t & k & T & E & I). destruct (G _ _ T) as (k' & T' & E'). exists t, k'. split; [exact T'|]. split; [congruence|]. apply in_or_app. auto.
Qed.
Lemma prov_more h l st st' t k : grows st st' -> prov h st t k -> prov (h ++ [l]) st' t k.
Proof.
  unfold prov, asked. intros G. destruct (t_phase k).
  - intros [A B]. eauto using shown_more.
  - intros [[A B] C]. split; [eauto using shown_more|apply in_or_app; auto].
  - intros (d' & [A B] & C & D & E). exists d'. split; [eauto using shown_more|]. split; [exact C|]. split; [apply in_or_app; auto|eapply got_more; eassumption].
  - intros (d' & [A B] & C & D & E). exists d'. split; [eauto using shown_more|]. split; [exact C|]. split; [apply in_or_app; auto|eapply got_more; eassumption].
  - auto.
  - auto.
  - auto.
Qed.
Lemma grows_update st t k p gs ss cs : nth_error (tasks st) t = Some k ->
  grows st (State gs ss (update t (Task (t_gen k) (t_activates k) p) (tasks st)) cs).
Proof.
  intros T t' k' K. cbn [tasks]. destruct (Nat.eq_dec t t') as [<-|NE].
  - rewrite (nth_update_same _ _ _ _ T). eexists. split; [reflexivity|]. rewrite T in K. injection K as <-. reflexivity.
  - rewrite nth_update_other by exact NE. eauto.
Qed.
Lemma grows_add st x gs ss cs : grows st (State gs ss (tasks st ++ [x]) cs).
Proof. intros t k T. exists k. cbn [tasks]. rewrite nth_error_app1; [auto|]. apply nth_error_Some. congruence. Qed.
Lemma grows_refl st gs ss cs : grows st (State gs ss (tasks st) cs).
Proof. intros t k T. eauto. Qed.
(** The factories keep what they have, or get what came *)
Lemma origin_task h l st t k p gs ss cs : origin h st -> nth_error (tasks st) t = Some k ->
  let st' := State gs ss (update t (Task (t_gen k) (t_activates k) p) (tasks st)) cs in
  (prov h st t k -> prov (h ++ [l]) st' t (Task (t_gen k) (t_activates k) p)) ->
  (forall g fa', nth_error gs g = Some fa' -> exists fa, nth_error (gens st) g = Some fa
     /\ (f_execs fa' = f_execs fa \/ g = t_gen k /\ exists e, f_execs fa' = Some e /\ l = LBoot t (Some e))
     /\ (forall f, In f (f_spaces fa') -> In f (f_spaces fa) \/ exists d, asked h d f)) ->
  origin (h ++ [l]) st'.
Proof.
  intros [A B C] T st' P G. assert (GR : grows st st') by (apply grows_update; exact T).
  assert (AM : forall d f, asked h d f -> asked (h ++ [l]) d f) by (intros d f [X Y]; split; [apply shown_more; exact X|exact Y]).
  constructor; cbn [st' gens tasks].
  - intros t' k' K. apply nth_update_inv in K as [[<- ->]|[NE K]]; [apply P; apply A; exact T|]. eapply prov_more; [exact GR|apply A; exact K].
  - intros g fa' e N X. destruct (G _ _ N) as (fa & N0 & [E|(-> & e' & E & ->)] & _).
    + eapply got_more; [exact GR|]. eapply B; [exact N0|congruence].
    + rewrite E in X. injection X as ->. destruct (GR _ _ T) as (k' & T' & E'). exists t, k'. split; [exact T'|]. split; [exact E'|]. apply in_or_app. right. left. reflexivity.
  - intros g fa' f N X. destruct (G _ _ N) as (fa & N0 & _ & S). destruct (S _ X) as [Y|(d & Y)]; [|eauto].
    destruct (C _ _ _ N0 Y) as (d & D). eauto.
Qed.
Lemma same_factories st g0 fa fa' : nth_error (gens st) g0 = Some fa -> f_spaces fa' = f_spaces fa -> forall h t l,
  (f_execs fa' = f_execs fa \/ exists e, f_execs fa' = Some e /\ l = LBoot t (Some e)) ->
  forall g fb', nth_error (update g0 fa' (gens st)) g = Some fb' -> exists fb, nth_error (gens st) g = Some fb
     /\ (f_execs fb' = f_execs fb \/ g = g0 /\ exists e, f_execs fb' = Some e /\ l = LBoot t (Some e))
     /\ (forall f, In f (f_spaces fb') -> In f (f_spaces fb) \/ exists d, asked h d f).
Proof.
  intros G SP h t l X g fb' N. apply nth_update_inv in N as [[<- ->]|[NE N]].
  - exists fa. split; [exact G|]. split; [tauto|]. intros f. rewrite SP. auto.
  - exists fb'. auto.
Qed.
Lemma kept_factories st h t l g0 : forall g fb', nth_error (gens st) g = Some fb' -> exists fb, nth_error (gens st) g = Some fb
     /\ (f_execs fb' = f_execs fb \/ g = g0 /\ exists e, f_execs fb' = Some e /\ l = LBoot t (Some e))
     /\ (forall f, In f (f_spaces fb') -> In f (f_spaces fb) \/ exists d, asked h d f).
Proof. intros g fb' N. exists fb'. auto. Qed.
Lemma origin_add h l st x ss cs : origin h st -> prov (h ++ [l]) (State (gens st) ss (tasks st ++ [x]) cs) (length (tasks st)) x ->
  origin (h ++ [l]) (State (gens st) ss (tasks st ++ [x]) cs).
Proof.
  intros [A B C] P. set (st' := State _ _ _ _) in *. assert (GR : grows st st') by apply grows_add. constructor; cbn [st' gens tasks].
  - intros t k K. apply nth_snoc_inv in K as [K|[-> ->]]; [eapply prov_more; [exact GR|apply A; exact K]|exact P].
  - intros g fa e N X. eapply got_more; [exact GR|eauto].
  - intros g fa f N X. destruct (C _ _ _ N X) as (d & D1 & D2). exists d. split; [apply shown_more; exact D1|exact D2].
Qed.
Lemma origin_more h l st ss cs : origin h st -> origin (h ++ [l]) (State (gens st) ss (tasks st) cs).
Proof.
  intros [A B C]. assert (GR : grows st (State (gens st) ss (tasks st) cs)) by (intros t k T; eauto). constructor; cbn [gens tasks].
  - intros t k K. eapply prov_more; [exact GR|apply A; exact K].
  - intros g fa e N X. eapply got_more; [exact GR|eauto].
  - intros g fa f N X. destruct (C _ _ _ N X) as (d & D1 & D2). exists d. split; [apply shown_more; exact D1|exact D2].
Qed.
Lemma origin_fresh h st : origin h st -> origin h (State (gens st ++ [fresh_factory]) (subs st) (tasks st) (clients st)).
Proof.
  intros [A B C]. constructor; cbn [gens tasks].
  - intros t k K. apply (A t k K).
  - intros g fa e N X. apply nth_snoc_inv in N as [N|[-> ->]]; [apply (B _ _ _ N X)|discriminate].
  - intros g fa f N X. apply nth_snoc_inv in N as [N|[-> ->]]; [eauto|destruct X].
Qed.
Lemma asks_folder a d f : asks a = Some (d, f) -> a = Some d /\ d_folder d = Some f.
Proof. destruct a as [d'|]; cbn; [|discriminate]. destruct (d_folder d') eqn:E; [|discriminate]. intros [= <- <-]. auto. Qed.
Lemma begin_check_prov h st t g ac files : prov h st t (Task g ac (begin_check files)).
Proof. unfold prov. cbn [t_phase]. induction files as [|d r IH]; cbn; [exact I|]. destruct (is_dove_toml d), (d_folder d); cbn; auto. Qed.
Lemma origin_activate h l st a : subs st = [] -> origin h st -> (forall d, a = Some d -> shown (h ++ [l]) d) -> origin (h ++ [l]) (fst (activate a st)).
Proof.
  intros E H SW. rewrite activate_cases by exact E. cbv zeta. pose proof (origin_fresh _ _ H) as H1.
  destruct (asks a) as [[d f]|] eqn:A; cbn [fst].
  - apply asks_folder in A as [A F]. apply (origin_add h l _ (Task (length (gens st)) true (WStat d f)) (early (length (gens st))) (clients st)) in H1; [exact H1|].
    cbn. split; [apply SW; exact A|exact F].
  - exact (origin_more h l _ (early (length (gens st)) ++ late (length (gens st))) (clients st) H1).
Qed.
Lemma origin_clients h st ss cs : origin h st -> origin h (State (gens st) ss (tasks st) cs).
Proof. intros [A B C]. constructor; [exact A|exact B|exact C]. Qed.
Lemma in_more {A} (h : list A) l : In l (h ++ [l]).
Proof. apply in_or_app. right. left. reflexivity. Qed.
Lemma origin_step s h st l st' o : shape s st -> origin h st -> effect st l st' o -> origin (h ++ [l]) st'.
Proof.
  intros SH OR E.
  assert (OV : forall t k ok fa', nth_error (tasks st) t = Some k -> t_phase k <> WOver ->
     (exists fa, nth_error (gens st) (t_gen k) = Some fa /\ f_spaces fa' = f_spaces fa /\ (f_execs fa' = f_execs fa \/ exists e, f_execs fa' = Some e /\ l = LBoot t (Some e))) ->
     origin (h ++ [l]) (fst (over t k ok (set_gen (t_gen k) fa' st)))).
  { intros t k ok fa' T P (fa & G & SP & X).
    destruct (over_cases s (set_gen (t_gen k) fa' st) t k ok (set_gen_shape _ _ _ _ SH) T P) as (o1 & E1 & _). rewrite E1. cbn [fst set_gen gens tasks clients].
    apply origin_task; [exact OR|exact T|intros _; exact I|]. eapply same_factories; eassumption. }
  assert (SG : forall k t, nth_error (tasks st) t = Some k -> exists fa, nth_error (gens st) (t_gen k) = Some fa).
  { intros k t T. destruct (nth_error (gens st) (t_gen k)) eqn:G; [eauto|]. apply nth_error_None in G. pose proof (sh_gen _ _ SH _ _ T). lia. }
  destruct E.
  - destruct st as [gs ss ts cs]. exact (origin_more h l _ ss cs OR).
  - destruct (sh_none _ _ SH (proj2 (sh_idle _ _ SH) H0)) as (A & B & C). apply origin_activate; [exact A|exact OR|].
    intros d ->. left. subst l. apply in_more.
  - assert (SW : forall d, a = Some d -> shown (h ++ [l]) d).
    { intros d ->. destruct H as [->|[->|[r ->]]].
      - right; right; right; left. apply in_more.
      - right; right; right; right; left. exists true. apply in_more.
      - right; right; right; right; right. exists t, r. apply in_more. }
    set (st1 := State _ _ _ _) in *.
    assert (S1 : shape s st1 /\ origin (h ++ [l]) st1).
    { destruct H0 as [->|(k & f & rest & T & P & ->)].
      - split; [unfold st1; destruct st; exact SH|]. exact (origin_more h l _ (subs st) (clients st) OR).
      - split; [apply (shape_task s st t k (begin_check rest) SH T); rewrite P; discriminate|].
        apply origin_task; [exact OR|exact T|intros _; apply begin_check_prov|apply kept_factories]. }
    destruct S1 as [SH1 OR1]. destruct (reload_cases s st1 a SH1) as [[_ E1]|[_ E1]]; rewrite E1; cbv zeta; cbn [fst]; [|exact OR1].
    rewrite activate_cases by reflexivity. cbv zeta. cbn [gens tasks clients]. destruct OR1 as [A B C].
    set (g := length (gens st1)).
    destruct (asks a) as [[d f]|] eqn:AS; cbn [fst].
    + apply asks_folder in AS as [-> F]. 
      assert (GR : grows st1 (State (gens st1 ++ [fresh_factory]) (early g) (tasks st1 ++ [Task g true (WStat d f)]) (disposed st1 (pred (length (gens st1)))))) by apply grows_add.
      assert (GM : forall g0 e, got (h ++ [l]) st1 g0 e -> got (h ++ [l]) (State (gens st1 ++ [fresh_factory]) (early g) (tasks st1 ++ [Task g true (WStat d f)]) (disposed st1 (pred (length (gens st1))))) g0 e).
      { intros g0 e (t0 & k0 & T0 & E0 & I0). destruct (GR _ _ T0) as (k1 & T1 & X). exists t0, k1. split; [exact T1|]. split; [congruence|exact I0]. }
      constructor; cbn [gens tasks].
      * intros t0 k0 K0. apply nth_snoc_inv in K0 as [K0|[-> ->]].
        -- specialize (A _ _ K0). unfold prov in *. destruct (t_phase k0); auto.
           ++ destruct A as (d' & X1 & X2 & X3 & X4). exists d'. auto.
           ++ destruct A as (d' & X1 & X2 & X3 & X4). exists d'. auto.
        -- cbn. split; [apply SW; reflexivity|exact F].
      * intros g0 fa e N X. apply nth_snoc_inv in N as [N|[-> ->]]; [eauto|discriminate].
      * intros g0 fa f0 N X. apply nth_snoc_inv in N as [N|[-> ->]]; [eauto|destruct X].
    + constructor; cbn [gens tasks].
      * intros t0 k0 K0. exact (A _ _ K0).
      * intros g0 fa e N X. apply nth_snoc_inv in N as [N|[-> ->]]; [exact (B _ _ _ N X)|discriminate].
      * intros g0 fa f0 N X. apply nth_snoc_inv in N as [N|[-> ->]]; [eauto|destruct X].
  - apply origin_add; [exact OR|]. cbn. split; [|assumption]. destruct H as [->| ->]; [right; left; apply in_more|right; right; left; apply in_more].
  - apply origin_add; [exact OR|]. apply begin_check_prov.
  - unfold add_task. cbn [gens subs tasks clients].
    assert (OR1 : origin (h ++ [l]) (State (gens st) (subs st) (tasks st ++ [Task (pred (length (gens st))) false (WStat d f)]) (clients st))).
    { apply origin_add; [exact OR|]. cbn. split; [|assumption]. subst l. right; right; left; apply in_more. }
    destruct OR1 as [A B C]. constructor; cbn [gens tasks] in *.
    + intros t k K. apply nth_snoc_inv in K as [K|[-> ->]]; [|apply begin_check_prov].
      specialize (A _ _ K). unfold prov in *. destruct (t_phase k); auto.
      * destruct A as (d' & X1 & X2 & X3 & X4). exists d'. split; [exact X1|]. split; [exact X2|]. split; [exact X3|].
        destruct X4 as (t0 & k0 & T0 & X4). exists t0, k0. split; [|exact X4]. cbn [tasks] in *. rewrite nth_error_app1; [exact T0|]. apply nth_error_Some. congruence.
      * destruct A as (d' & X1 & X2 & X3 & X4). exists d'. split; [exact X1|]. split; [exact X2|]. split; [exact X3|].
        destruct X4 as (t0 & k0 & T0 & X4). exists t0, k0. split; [|exact X4]. cbn [tasks] in *. rewrite nth_error_app1; [exact T0|]. apply nth_error_Some. congruence.
    + intros g fa e N X. destruct (B _ _ _ N X) as (t0 & k0 & T0 & X4). exists t0, k0. split; [|exact X4]. cbn [tasks] in *.
      rewrite nth_error_app1; [exact T0|]. apply nth_error_Some. congruence.
    + exact C.
  - subst l. apply origin_task; [exact OR|assumption| |apply kept_factories]. unfold prov. rewrite H1. cbn [t_phase].
    intros [A B]. split; [split; [apply shown_more; exact A|exact B]|apply in_more].
  - assert (P : t_phase k <> WOver) by (destruct H0 as [(d & f & -> & _)|[(d & f & -> & _)|(f & a & d & ? & [-> | ->] & _)]]; discriminate).
    destruct (SG _ _ H) as (fa & G). rewrite <- (set_gen_same _ _ _ G). apply OV; auto. exists fa. auto.
  - assert (P : t_phase k <> WOver) by (destruct H0 as [[_ ->]|[_ ->]]; discriminate). apply OV; auto. exists fa. split; [assumption|]. split; [assumption|].
    destruct H3 as [X|[-> X]]; eauto.
  - unfold set_task. cbn [set_gen gens subs tasks clients].
    assert (ASK : asked h d f).
    { pose proof (or_tasks _ _ OR _ _ H) as X. unfold prov in X. destruct H0 as [(_ & P & _)|(_ & P & _)]; rewrite P in X; tauto. }
    apply origin_task; [exact OR|exact H| |].
    + intros PR. unfold prov. cbn [t_phase t_gen]. exists d. split; [destruct ASK; split; [apply shown_more|]; assumption|].
      split; [apply is_move_spec; assumption|]. unfold prov in PR. split.
      * destruct H0 as [(-> & _)|(_ & P & _)]; [apply in_more|]. rewrite P in PR. apply in_or_app. left. tauto.
      * replace (fst execs, snd execs) with execs by (destruct execs; reflexivity).
        destruct H0 as [(_ & _ & X & _)|(-> & _ & _)].
        -- eapply got_more; [apply grows_update; exact H|]. eapply (or_execs _ _ OR); eassumption.
        -- exists t. eexists. cbn [tasks]. rewrite (nth_update_same _ _ _ _ H). split; [reflexivity|]. split; [reflexivity|apply in_more].
    + intros g fb' N. apply nth_update_inv in N as [[<- ->]|[NE N]]; [|apply (kept_factories st h t l (t_gen k)); exact N]. exists fa. split; [assumption|]. split.
      * destruct H0 as [(_ & _ & _ & X)|(-> & _ & X)]; [left; exact X|right]. eauto.
      * intros f'. rewrite H4, in_app_iff. intros [X|[<-|[]]]; [auto|]. right. eauto.
  - apply origin_task; [exact OR|assumption| |apply kept_factories]. unfold prov. rewrite H1. cbn [t_phase t_gen].
    intros (d' & [A B] & C & D & F). exists d'. split; [split; [apply shown_more; exact A|exact B]|]. split; [exact C|]. split; [apply in_or_app; auto|].
    eapply got_more; [|exact F]. apply grows_update. exact H0.
  - assert (P : t_phase k <> WOver) by congruence. apply OV; auto. destruct H2 as (fa & A & B & C). exists fa. auto.
  - assert (P : t_phase k <> WOver) by congruence. apply origin_clients. rewrite H3. apply OV; auto. destruct H2 as (fa & A & B & C). exists fa. auto.
  - apply origin_task; [exact OR|assumption| |apply kept_factories]. intros _.
    destruct H1 as [(f & rest & ->)|[->|(files & ->)]]; [exact I|exact I|apply begin_check_prov].
Qed.
Lemma run_origin h st os : run init_state h = Some (st, os) -> origin h st.
Proof.
  apply (run_invariant (fun h _ st => origin h st)).
  - constructor; intros [|g]; discriminate.
  - intros h0 O st0 l st' o S SH _ E. eapply origin_step; eassumption.
Qed.
(** What a step that starts a server was *)
Lemma over_starts t k ok st f s d op : ~ In (OStart f s d op) (snd (over t k ok st)).
Proof.
  unfold over, finish, complete. destruct (t_activates k), ok; cbn [snd]; [|cbn; intuition discriminate|intros []|intros []].
  match goal with |- context [if ?c then _ else _] => destruct c end; cbn; intuition discriminate.
Qed.
Lemma mute_starts o f s d op : fservers o = [] -> ~ In (OStart f s d op) o.
Proof.
  intros H I. apply in_split in I as (a & b & ->). rewrite servers_app in H. apply app_eq_nil in H as [_ H]. discriminate.
Qed.
Lemma reload_starts s st a f sv d op : shape s st -> ~ In (OStart f sv d op) (snd (reload a st)).
Proof.
  intros SH. destruct (reload_cases s st a SH) as [[_ ->]|[_ ->]]; [|intros []]. cbv zeta. cbn [snd]. rewrite activate_cases by reflexivity. cbv zeta.
  apply mute_starts. change (OReloaded :: ?x) with ([OReloaded] ++ x). rewrite !servers_app. unfold disposed_out.
  destruct (nth_error (gens st) _) as [fa|]; [rewrite (proj1 (stopped_ids_quiet _ _ _ _))|]; destruct (asks a) as [[d' f']|]; reflexivity.
Qed.
Lemma start_cause s st l st' o f sv d op : shape s st -> effect st l st' o -> In (OStart f sv d op) o ->
  exists t k m a, l = LMeta t (IsMetadata m) a /\ op = init_options m /\ nth_error (tasks st) t = Some k /\ t_phase k = WStart f sv d.
Proof.
  intros SH E I. destruct E; try (destruct I; fail).
  - exfalso. revert I. destruct (sh_none _ _ SH (proj2 (sh_idle _ _ SH) H0)) as (A & B & C). rewrite activate_cases by exact A. cbv zeta.
    destruct (asks a) as [[d' f']|]; cbn; intuition discriminate.
  - exfalso. revert I. set (st1 := State _ _ _ _). assert (SH1 : shape s st1).
    { destruct H0 as [->|(k & f' & rest & T & P & ->)]; [unfold st1; destruct st; exact SH|].
      apply (shape_task s st t k (begin_check rest) SH T); rewrite P; discriminate. }
    eapply reload_starts; exact SH1.
  - destruct (over_starts _ _ _ _ _ _ _ _ I).
  - destruct (over_starts _ _ _ _ _ _ _ _ I).
  - destruct I as [I|I]; [discriminate|]. destruct (over_starts _ _ _ _ _ _ _ _ I).
  - destruct I as [I|I]; [|destruct (over_starts _ _ _ _ _ _ _ _ I)]. injection I as <- <- <- <-. exists t, k, m, a. auto.
  - destruct H2 as [->|[e ->]]; cbn in I; intuition discriminate.
Qed.

(** ** Life, read off the outputs *)
Lemma life_split O s : fold_left lives O s = Good -> s = Good /\ ~ In OActivate O \/ exists a b, O = a ++ OActivated :: b /\ ~ In OActivate b.
Proof.
  revert s. induction O as [|o O IH]; intros s H; [left; split; [exact H|intros []]|]. cbn [fold_left] in H.
  destruct (IH _ H) as [[L N]|(a & b & -> & N)]; [|right; exists (o :: a), b; auto].
  destruct o; cbn in L; try discriminate; try (left; split; [exact L|intros [X|X]; [discriminate|contradiction]]).
  right. exists [], O. auto.
Qed.
Lemma life_split_bad O s : fold_left lives O s = Bad -> s = Bad /\ ~ In OActivate O \/ exists a b, O = a ++ OActivationFailed :: b /\ ~ In OActivate b.
Proof.
  revert s. induction O as [|o O IH]; intros s H; [left; split; [exact H|intros []]|]. cbn [fold_left] in H.
  destruct (IH _ H) as [[L N]|(a & b & -> & N)]; [|right; exists (o :: a), b; auto].
  destruct o; cbn in L; try discriminate; try (left; split; [exact L|intros [X|X]; [discriminate|contradiction]]).
  right. exists [], O. auto.
Qed.
(** Outputs come in order: an activation ends once *)
Definition ends (o : output) : bool := match o with OActivated | OActivationFailed => true | _ => false end.
Fixpoint orderly (s : life) (O : list output) : Prop :=
  match O with
  | [] => True
  | o :: r => (ends o = true -> s = Running) /\ (o = OActivate -> s = Idle \/ s = Good) /\ orderly (lives s o) r
  end.
Lemma orderly_app s a b : orderly s (a ++ b) <-> orderly s a /\ orderly (fold_left lives a s) b.
Proof. revert s. induction a as [|o a IH]; intros s; cbn; [tauto|]. rewrite IH. tauto. Qed.
Lemma orderly_kept s O : orderly s O -> (s = Good \/ s = Bad) -> ~ In OActivate O -> fold_left lives O s = s.
Proof.
  revert s. induction O as [|o O IH]; intros s H G N; [reflexivity|]. cbn in H |- *. destruct H as (A & B & C).
  assert (E : lives s o = s).
  { destruct o; cbn in *; try reflexivity; [destruct N; auto| |]; specialize (A eq_refl); destruct G; congruence. }
  rewrite E in *. apply IH; [exact C|exact G|intros X; apply N; right; exact X].
Qed.
Lemma quiet_orderly s o : (forall x, In x o -> ends x = false /\ x <> OActivate) -> orderly s o /\ fold_left lives o s = s.
Proof.
  revert s. induction o as [|x o IH]; intros s H; [split; [exact I|reflexivity]|]. cbn. destruct (H x (or_introl eq_refl)) as [A B].
  assert (E : lives s x = s) by (destruct x; cbn in *; congruence). rewrite E. destruct (IH s) as [C D]; [intros y Y; apply H; right; exact Y|].
  split; [|exact D]. split; [congruence|]. split; [congruence|exact C].
Qed.
Lemma over_orderly s st t k ok : shape s st -> nth_error (tasks st) t = Some k -> t_phase k <> WOver -> orderly s (snd (over t k ok st)).
Proof.
  intros H T P. destruct (over_cases s st t k ok H T P) as (o & E & O & _). rewrite E. cbn [snd]. subst o.
  destruct (t_activates k) eqn:A; [|exact I]. assert (R : s = Running) by (apply (sh_pending _ _ H t); exists k; auto).
  destruct ok; cbn; split; auto; split; try exact I; discriminate.
Qed.
Lemma stopped_ids_only g sp b l x : In x (stopped_ids g sp b l) -> exists n, x = OStop n.
Proof.
  revert b. induction l as [|c l IH]; intros b; cbn [stopped_ids]; [intros []|]. rewrite in_app_iff. intros [X|X]; [|eauto].
  destruct (_ && _); [destruct X as [<-|[]]; eauto|destruct X].
Qed.
Lemma reload_orderly s st a : shape s st -> orderly s (snd (reload a st)).
Proof.
  intros H. destruct (reload_cases s st a H) as [[G E]|[_ E]]; rewrite E; cbv zeta; cbn [snd]; [|exact I].
  rewrite activate_cases by reflexivity. cbv zeta. subst s. cbn [orderly ends lives]. split; [discriminate|]. split; [discriminate|].
  destruct (quiet_orderly Good (disposed_out st (pred (length (gens st))))) as [A B].
  { intros x X. unfold disposed_out in X. destruct (nth_error (gens st) _); [|destruct X]. apply stopped_ids_only in X as (n & ->). split; [reflexivity|discriminate]. }
  apply orderly_app. split; [exact A|]. rewrite B. destruct (asks a) as [[d f]|]; cbn; repeat split; auto; discriminate.
Qed.
Lemma effect_orderly s st l st' o : shape s st -> effect st l st' o -> orderly s o.
Proof.
  intros H E.
  assert (OV : forall t k ok fa', nth_error (tasks st) t = Some k -> t_phase k <> WOver -> orderly s (snd (over t k ok (set_gen (t_gen k) fa' st)))).
  { intros t k ok fa' T P. apply over_orderly; [apply set_gen_shape; exact H|exact T|exact P]. }
  destruct E; try exact I.
  - apply (sh_idle _ _ H) in H1. destruct (sh_none _ _ H H1) as (A & B & C). rewrite activate_cases by exact A. cbv zeta.
    destruct (asks a) as [[d f]|]; cbn; repeat split; auto; discriminate.
  - apply reload_orderly. destruct H1 as [->|(k & f & rest & T & P & ->)]; [destruct st; exact H|].
    apply (shape_task s st t k (begin_check rest) H T). rewrite P. discriminate.
  - assert (P : t_phase k <> WOver) by (destruct H1 as [(d & f & -> & _)|[(d & f & -> & _)|(f & a & d & ? & [-> | ->] & _)]]; discriminate).
    apply over_orderly; assumption.
  - assert (P : t_phase k <> WOver) by (destruct H1 as [[_ ->]|[_ ->]]; discriminate). apply OV; assumption.
  - cbn [orderly ends lives]. split; [discriminate|]. split; [discriminate|]. apply OV; [assumption|congruence].
  - cbn [orderly ends lives]. split; [discriminate|]. split; [discriminate|]. apply OV; [assumption|congruence].
  - destruct H3 as [->|[e ->]]; cbn; repeat split; discriminate.
Qed.
Lemma run_orderly h st os : run init_state h = Some (st, os) -> orderly Idle (concat os).
Proof.
  apply (run_invariant (fun _ O _ => orderly Idle O)); [exact I|].
  intros h0 O st0 l st' o S SH _ E. apply orderly_app. split; [exact S|]. eapply effect_orderly; eassumption.
Qed.
Lemma activated_life h st os : run init_state h = Some (st, os) -> activated os <-> life_of (concat os) = Good.
Proof.
  intros R. pose proof (run_orderly _ _ _ R) as O. unfold activated. split.
  - intros (a & b & E & N). unfold life_of. rewrite E in *. apply orderly_app in O as [_ O]. cbn [orderly lives] in O.
    rewrite fold_left_app. cbn [fold_left lives]. apply orderly_kept; tauto.
  - intros L. apply life_split in L as [[L _]|L]; [discriminate|exact L].
Qed.
Lemma failed_life h st os : run init_state h = Some (st, os) -> failed os <-> life_of (concat os) = Bad.
Proof.
  intros R. pose proof (run_orderly _ _ _ R) as O. unfold failed. split.
  - intros (a & b & E & N). unfold life_of. rewrite E in *. apply orderly_app in O as [_ O]. cbn [orderly lives] in O.
    rewrite fold_left_app. cbn [fold_left lives]. apply orderly_kept; tauto.
  - intros L. apply life_split_bad in L as [[L _]|L]; [discriminate|exact L].
Qed.
(** Nothing revives an extension whose activation failed *)
Lemma dead_step st l st' o : shape Bad st -> effect st l st' o -> shape Bad st' /\ ~ In OReloaded o /\ ~ In OActivate o.
Proof.
  intros H E. pose proof (effect_orderly _ _ _ _ _ H E) as O. pose proof (effect_shape _ _ _ _ _ H E) as S.
  assert (NA : ~ In OActivate o).
  { clear - O.
    enough (G : forall o s, s = Bad -> orderly s o -> ~ In OActivate o) by (eapply G; eauto).
    clear. induction o as [|x o IH]; [intros s _ _ []|]. intros s -> H [X|X]; cbn in H; destruct H as (A & B & C).
    - subst x. destruct (B eq_refl); discriminate.
    - assert (Y : lives Bad x = Bad) by (destruct x; cbn in *; try reflexivity; [destruct (B eq_refl); discriminate|discriminate (A eq_refl)]).
      rewrite Y in C. exact (IH _ eq_refl C X). }
  rewrite (orderly_kept Bad o O) in S by auto. split; [exact S|]. split; [|exact NA].
  assert (OV : forall t k ok fa', nth_error (tasks st) t = Some k -> t_phase k <> WOver -> ~ In OReloaded (snd (over t k ok (set_gen (t_gen k) fa' st)))).
  { intros t k ok fa' T P. apply (over_silent Bad); [apply set_gen_shape; exact H|exact T|exact P]. }
  destruct E; try (intros []; fail).
  - exfalso. apply NA. destruct (sh_idle _ _ H) as [_ X]. discriminate (X H1).
  - intros X. apply NA. revert X. destruct (reload_cases Bad (State (gens st) (subs st) ts (clients st)) a) as [[G E]|[_ E]].
    + destruct H1 as [->|(k & f & rest & T & P & ->)]; [destruct st; exact H|].
      apply (shape_task Bad st t k (begin_check rest) H T). rewrite P. discriminate.
    + discriminate.
    + rewrite E. intros [].
  - assert (P : t_phase k <> WOver) by (destruct H1 as [(d & f & -> & _)|[(d & f & -> & _)|(f & a & d & ? & [-> | ->] & _)]]; discriminate).
    eapply over_silent; eassumption.
  - assert (P : t_phase k <> WOver) by (destruct H1 as [[_ ->]|[_ ->]]; discriminate). apply OV; assumption.
  - intros [X|X]; [discriminate|]. revert X. apply OV; [assumption|congruence].
  - intros [X|X]; [discriminate|]. revert X. apply OV; [assumption|congruence].
  - destruct H3 as [->|[e ->]]; cbn; intuition discriminate.
Qed.
Lemma run_app st h1 h2 st' os : run st (h1 ++ h2) = Some (st', os) ->
  exists st1 os1 os2, run st h1 = Some (st1, os1) /\ run st1 h2 = Some (st', os2) /\ os = os1 ++ os2.
Proof.
  revert st os. induction h1 as [|l h1 IH]; intros st os H; [exists st, [], os; auto|]. cbn [app run] in *.
  destruct (step st l) as [[st1 o]|]; [|discriminate]. destruct (run st1 (h1 ++ h2)) as [[st2 os2]|] eqn:R; [|discriminate]. injection H as <- <-.
  destruct (IH _ _ R) as (st3 & os3 & os4 & A & B & ->). exists st3, (o :: os3), os4. rewrite A. auto.
Qed.
Lemma dead_run st h st' os : shape Bad st -> run st h = Some (st', os) -> ~ In OReloaded (concat os) /\ ~ In OActivate (concat os).
Proof.
  revert st os. induction h as [|l h IH]; intros st os H R; cbn [run] in R; [injection R as <- <-; auto|].
  destruct (step st l) as [[st1 o]|] eqn:S; [|discriminate]. destruct (run st1 h) as [[st2 os2]|] eqn:R2; [|discriminate]. injection R as <- <-.
  destruct (dead_step _ _ _ _ H (step_effect _ _ _ _ _ H S)) as (S1 & A & B). destruct (IH _ _ S1 R2) as [C D].
  cbn [concat]. rewrite !in_app_iff. tauto.
Qed.

(** ** Failures *)
Lemma failure_cause s st l st' o : shape s st -> effect st l st' o -> In OActivationFailed o ->
  exists t k, nth_error (tasks st) t = Some k /\ t_activates k = true /\ (l = LBoot t None \/ exists a, l = LMeta t BadJson a).
Proof.
  intros SH E I.
  assert (OV : forall t k fa', nth_error (tasks st) t = Some k -> t_phase k <> WOver -> ~ In OActivationFailed (snd (over t k true (set_gen (t_gen k) fa' st)))).
  { intros t k fa' T P. destruct (over_cases s (set_gen (t_gen k) fa' st) t k true (set_gen_shape _ _ _ _ SH) T P) as (o1 & E1 & O & _). rewrite E1. cbn [snd]. subst o1.
    destruct (t_activates k); cbn; intuition discriminate. }
  destruct E; try (destruct I; fail).
  - exfalso. revert I. destruct (sh_none _ _ SH (proj2 (sh_idle _ _ SH) H0)) as (A & B & C). rewrite activate_cases by exact A. cbv zeta.
    destruct (asks a) as [[d' f']|]; cbn; intuition discriminate.
  - exfalso. revert I. set (st1 := State _ _ _ _). assert (SH1 : shape s st1).
    { destruct H0 as [->|(k & f' & rest & T & P & ->)]; [unfold st1; destruct st; exact SH|].
      apply (shape_task s st t k (begin_check rest) SH T); rewrite P; discriminate. }
    destruct (reload_cases s st1 a SH1) as [[_ ->]|[_ ->]]; [|intros []]. cbv zeta. cbn [snd]. rewrite activate_cases by reflexivity. cbv zeta.
    intros [X|X]; [discriminate|]. apply in_app_iff in X as [X|X].
    + unfold disposed_out in X. destruct (nth_error (gens st1) (pred (length (gens st1)))); [|destruct X]. apply stopped_ids_only in X as (n & X). discriminate.
    + destruct (asks a) as [[d' f']|]; cbn in X; intuition discriminate.
  - assert (P : t_phase k <> WOver) by (destruct H0 as [(d & f & -> & _)|[(d & f & -> & _)|(f & a & d & ? & [-> | ->] & _)]]; discriminate).
    destruct (over_cases s st t k ok SH H P) as (o1 & E1 & O & _). rewrite E1 in I. cbn [snd] in I. subst o1.
    destruct (t_activates k) eqn:AC; [|destruct I]. exists t, k. split; [exact H|]. split; [exact AC|].
    destruct H0 as [(d & f & _ & _ & ->)|[(d & f & _ & -> & _)|(f & a & d & b & _ & -> & _)]]; [cbn in I; intuition discriminate|auto|right; exists b; reflexivity].
  - assert (P : t_phase k <> WOver) by (destruct H0 as [[_ ->]|[_ ->]]; discriminate). destruct (OV _ _ fa' H P I).
  - assert (P : t_phase k <> WOver) by congruence. destruct I as [I|I]; [discriminate|]. destruct (OV _ _ fa' H0 P I).
  - assert (P : t_phase k <> WOver) by congruence. destruct I as [I|I]; [discriminate|]. destruct (OV _ _ fa' H0 P I).
  - destruct H2 as [->|[e ->]]; cbn in I; intuition discriminate.
Qed.

(** ** A server of an activation that is over is never stopped *)
Definition stranded (n : nat) (f : text) (st : state) : Prop :=
  exists c, nth_error (clients st) n = Some c /\ c_folder c = f /\ c_alive c = true /\ c_gen c < pred (length (gens st)).
Lemma stranded_same n f st st' : stranded n f st -> (forall i c, nth_error (clients st) i = Some c -> nth_error (clients st') i = Some c) ->
  length (gens st') = length (gens st) -> stranded n f st'.
Proof. intros (c & N & F & A & G) C L. exists c. rewrite L. auto. Qed.
Lemma stranded_step s n f st l st' o : shape s st -> stranded n f st -> effect st l st' o -> stranded n f st'.
Proof.
  intros SH S E.
  assert (OV : forall t k ok fa', nth_error (tasks st) t = Some k -> t_phase k <> WOver ->
     clients (fst (over t k ok (set_gen (t_gen k) fa' st))) = clients st /\ length (gens (fst (over t k ok (set_gen (t_gen k) fa' st)))) = length (gens st)).
  { intros t k ok fa' T P. destruct (over_mute s (set_gen (t_gen k) fa' st) t k ok (set_gen_shape _ _ _ _ SH) T P) as (_ & A & B). rewrite A, B. cbn. rewrite update_length. auto. }
  destruct E; try exact S.
  - exfalso. destruct S as (c & N & _). destruct (sh_none _ _ SH (proj2 (sh_idle _ _ SH) H0)) as (_ & _ & C). rewrite C in N. destruct n; discriminate.
  - set (st1 := State _ _ _ _) in *. assert (SH1 : shape s st1 /\ stranded n f st1).
    { split; [|exact S]. destruct H0 as [->|(k & f' & rest & T & P & ->)]; [unfold st1; destruct st; exact SH|].
      apply (shape_task s st t k (begin_check rest) SH T); rewrite P; discriminate. }
    destruct SH1 as [SH1 S1]. destruct (reload_cases s st1 a SH1) as [[_ ->]|[_ ->]]; [|exact S1]. cbv zeta. cbn [fst].
    rewrite activate_cases by reflexivity. cbv zeta. cbn [gens tasks clients]. destruct S1 as (c & N & F & A & G).
    assert (D : nth_error (disposed st1 (pred (length (gens st1)))) n = Some c).
    { unfold disposed. destruct (nth_error (gens st1) _); [|exact N]. rewrite nth_error_map, N. cbn [option_map]. unfold stops.
      destruct (Nat.eqb (c_gen c) (pred (length (gens st1)))) eqn:Q; [|reflexivity]. apply Nat.eqb_eq in Q. lia. }
    exists c. destruct (asks a) as [[d' f']|]; cbn [fst gens clients]; rewrite app_length; cbn [length]; repeat split; auto; lia.
  - assert (P : t_phase k <> WOver) by (destruct H0 as [(d & f' & -> & _)|[(d & f' & -> & _)|(f' & a & d & ? & [-> | ->] & _)]]; discriminate).
    destruct (over_mute s st t k ok SH H P) as (_ & A & B). eapply stranded_same; [exact S|rewrite B; auto|rewrite A; reflexivity].
  - assert (P : t_phase k <> WOver) by (destruct H0 as [[_ ->]|[_ ->]]; discriminate). destruct (OV t k true fa' H P) as [A B].
    eapply stranded_same; [exact S|rewrite A; auto|exact B].
  - eapply stranded_same; [exact S|auto|]. cbn. apply update_length.
  - assert (P : t_phase k <> WOver) by congruence. destruct (OV t k true fa' H0 P) as [A B]. eapply stranded_same; [exact S|rewrite A; auto|exact B].
  - assert (P : t_phase k <> WOver) by congruence. destruct (OV t k true fa' H0 P) as [A B]. rewrite <- H3 in *. eapply stranded_same; [exact S| |exact B].
    cbn [clients]. rewrite A. intros i c N. rewrite nth_error_app1; [exact N|]. apply nth_error_Some. congruence.
Qed.
Lemma run_from st h st' os s : shape s st -> run st h = Some (st', os) -> shape (fold_left lives (concat os) s) st'.
Proof.
  revert st os s. induction h as [|l h IH]; intros st os s H R; cbn [run] in R; [injection R as <- <-; exact H|].
  destruct (step st l) as [[st1 o]|] eqn:S; [|discriminate]. destruct (run st1 h) as [[st2 os2]|] eqn:R2; [|discriminate]. injection R as <- <-.
  cbn [concat]. rewrite fold_left_app. eapply IH; [|exact R2]. eapply effect_shape; [exact H|]. eapply step_effect; eassumption.
Qed.
Lemma stranded_run s n f st h st' os : shape s st -> stranded n f st -> run st h = Some (st', os) -> stranded n f st'.
Proof.
  revert st os s. induction h as [|l h IH]; intros st os s H ST R; cbn [run] in R; [injection R as <- <-; exact ST|].
  destruct (step st l) as [[st1 o]|] eqn:S; [|discriminate]. destruct (run st1 h) as [[st2 os2]|] eqn:R2; [|discriminate]. injection R as <- <-.
  pose proof (step_effect _ _ _ _ _ H S) as E. eapply IH; [eapply effect_shape; eassumption|eapply stranded_step; eassumption|exact R2].
Qed.

(** ** A folder that is known and has no server gets none before a reload *)
Definition barren (f : text) (st : state) : Prop := forall g, g < length (gens st) -> number st g f = 0 /\ In f (spaces_of st g).
Lemma barren_mono f st st' : barren f st -> length (gens st') = length (gens st) -> (forall g, number st' g f <= number st g f) ->
  (forall g, incl (spaces_of st g) (spaces_of st' g)) -> barren f st'.
Proof. intros B L N I g G. rewrite L in G. destruct (B g G) as [Z F]. split; [specialize (N g); lia|apply I; exact F]. Qed.
Lemma barren_step s f st l st' o : shape s st -> gens st <> [] -> barren f st -> effect st l st' o -> ~ In OReloaded o ->
  barren f st' /\ gens st' <> [] /\ forall sv d op, ~ In (OStart f sv d op) o.
Proof.
  intros SH GN B E NR.
  assert (ST : forall sv d op, ~ In (OStart f sv d op) o).
  { intros sv d op I. destruct (start_cause _ _ _ _ _ _ _ _ _ SH E I) as (t & k & m & a & _ & _ & T & P).
    destruct (B (t_gen k) (sh_gen _ _ SH _ _ T)) as [Z _]. unfold number in Z.
    assert (0 < cnt (starting (t_gen k) f) (tasks st)); [|lia]. eapply cnt_pos; [exact T|]. unfold starting. rewrite P, Nat.eqb_refl, text_eqb_refl. reflexivity. }
  assert (OV : forall t k ok fa', nth_error (tasks st) t = Some k -> t_phase k <> WOver ->
     (exists fa, nth_error (gens st) (t_gen k) = Some fa /\ f_spaces fa' = f_spaces fa) ->
     let st1 := fst (over t k ok (set_gen (t_gen k) fa' st)) in
     gens st1 = update (t_gen k) fa' (gens st) /\ tasks st1 = update t (Task (t_gen k) (t_activates k) WOver) (tasks st) /\ clients st1 = clients st
     /\ barren f st1).
  { intros t k ok fa' T P (fa & G & SP). destruct (over_cases s (set_gen (t_gen k) fa' st) t k ok (set_gen_shape _ _ _ _ SH) T P) as (o1 & E1 & _ & _).
    rewrite E1. cbv zeta. cbn [fst set_gen gens tasks clients]. split; [reflexivity|]. split; [reflexivity|]. split; [reflexivity|].
    eapply barren_mono; [exact B|apply update_length| |].
    - intros g. apply (number_update st t k WOver _ _ T). left. exact I.
    - intros g x X. unfold spaces_of at 1. cbn [gens]. rewrite (spaces_update st _ g fa' fa G).
      destruct (Nat.eqb (t_gen k) g) eqn:EQ; [|exact X]. apply Nat.eqb_eq in EQ as <-. rewrite SP. unfold spaces_of in X. rewrite G in X. exact X. }
  assert (NN : forall (gs : list factory), length gs = length (gens st) -> gs <> []).
  { intros gs L ->. destruct (gens st); [auto|discriminate]. }
  split; [|split; [|exact ST]].
  - clear ST. destruct E.
    + exact B.
    + congruence.
    + set (st1 := State _ _ _ _) in *.
      assert (S1 : barren f st1 /\ shape s st1).
      { destruct H0 as [->|(k & f' & rest & T & P & ->)]; [unfold st1; destruct st; auto|]. split.
        - eapply barren_mono; [exact B|reflexivity| |].
          + intros g. apply (number_update st t k); [exact T|]. left. apply begin_check_idle.
          + intros g x X. exact X.
        - apply (shape_task s st t k (begin_check rest) SH T). rewrite P. discriminate. }
      destruct S1 as [S1 SH1]. destruct (reload_cases s st1 a SH1) as [[_ E1]|[_ E1]]; rewrite E1 in *; [|exact S1].
      exfalso. apply NR. left. reflexivity.
    + intros g G. unfold add_task. rewrite (number_add st); [|exact I|reflexivity]. exact (B g G).
    + intros g G. unfold add_task. rewrite (number_add st); [|apply begin_check_idle|reflexivity]. exact (B g G).
    + intros g G. unfold add_task. cbn [gens subs tasks clients].
      rewrite (number_add (State (gens st) (subs st) (tasks st ++ [Task (pred (length (gens st))) false (WStat d f0)]) (clients st)));
        [|apply begin_check_idle|reflexivity]. rewrite (number_add st); [|exact I|reflexivity]. exact (B g G).
    + eapply barren_mono; [exact B|reflexivity| |intros g x X; exact X]. intros g. apply (number_update st t k); [assumption|]. left. exact I.
    + assert (P : t_phase k <> WOver) by (destruct H0 as [(d & f' & -> & _)|[(d & f' & -> & _)|(f' & a & d & ? & [-> | ->] & _)]]; discriminate).
      destruct (nth_error (gens st) (t_gen k)) as [fa|] eqn:G.
      * rewrite <- (set_gen_same _ _ _ G). eapply OV; eauto.
      * apply nth_error_None in G. pose proof (sh_gen _ _ SH _ _ H). lia.
    + assert (P : t_phase k <> WOver) by (destruct H0 as [[_ ->]|[_ ->]]; discriminate). eapply OV; eauto.
    + assert (P : idle_phase (t_phase k)) by (destruct H0 as [(_ & -> & _)|(_ & -> & _)]; exact I).
      assert (NE : f0 <> f).
      { intros ->. apply H2. destruct (B (t_gen k) (sh_gen _ _ SH _ _ H)) as [_ X]. unfold spaces_of in X. rewrite H1 in X. exact X. }
      eapply barren_mono; [exact B|apply update_length| |].
      * intros g. unfold number. cbn [set_task set_gen tasks clients].
        pose proof (cnt_update (starting g f) t k (Task (t_gen k) (t_activates k) (WMeta f0 (snd execs) (fst execs))) (tasks st) H) as C.
        rewrite (starting_idle g f k P), starting_phase in C. destruct (text_eqb f0 f) eqn:EF; [apply text_eqb_eq in EF; contradiction|].
        rewrite andb_false_r in C. cbn [bn] in C. lia.
      * intros g x X. unfold spaces_of at 1. cbn [set_task set_gen gens]. rewrite (spaces_update st _ g fa' fa H1).
        destruct (Nat.eqb (t_gen k) g) eqn:EQ; [|exact X]. apply Nat.eqb_eq in EQ as <-. rewrite H4. unfold spaces_of in X. rewrite H1 in X. apply in_or_app. auto.
    + eapply barren_mono; [exact B|reflexivity| |intros g x X; exact X]. intros g. apply (number_update st t k); [assumption|]. right. eauto.
    + destruct H2 as (fa & G & SP & _). eapply OV; eauto. congruence.
    + destruct H2 as (fa & G & SP & _).
      assert (PO : t_phase k <> WOver) by congruence.
      destruct (OV t k true fa' H0 PO (ex_intro _ fa (conj G SP))) as (EG & ET & EC & BA). rewrite <- H3 in EG, ET, EC, BA.
      assert (NE : text_eqb f0 f = false).
      { destruct (text_eqb f0 f) eqn:EF; [|reflexivity]. exfalso. destruct (B (t_gen k) (sh_gen _ _ SH _ _ H0)) as [Z _]. unfold number in Z.
        assert (0 < cnt (starting (t_gen k) f) (tasks st)); [|lia]. eapply cnt_pos; [exact H0|]. unfold starting. rewrite H1, Nat.eqb_refl. exact EF. }
      intros g L. destruct (BA g L) as [Z F]. split; [|exact F]. unfold number in *. cbn [tasks clients] in *. rewrite cnt_app, cnt_one.
      unfold owned at 2. cbn [c_gen c_folder]. rewrite NE, andb_false_r. cbn [bn]. lia.
    + eapply barren_mono; [exact B|reflexivity| |intros g x X; exact X]. intros g. apply (number_update st t k); [assumption|]. left.
      destruct H1 as [(f' & rest & ->)|[->|(files & ->)]]; [exact I|exact I|apply begin_check_idle].
  - pose proof (effect_shape _ _ _ _ _ SH E) as SH'. intros Z. apply (sh_idle _ _ SH') in Z.
    assert (NI : s <> Idle) by (intros X; apply (sh_idle _ _ SH) in X; contradiction).
    clear - Z NI. revert s Z NI. induction o as [|x o IH]; intros s Z NI; cbn in Z; [contradiction|].
    apply (IH _ Z). destruct x; cbn; congruence.
Qed.
Lemma barren_run s f st h st' os : shape s st -> gens st <> [] -> barren f st -> run st h = Some (st', os) -> ~ In OReloaded (concat os) ->
  forall sv d op, ~ In (OStart f sv d op) (concat os).
Proof.
  revert st os s. induction h as [|l h IH]; intros st os s H G B R NR sv d op; cbn [run] in R; [injection R as <- <-; auto|].
  destruct (step st l) as [[st1 o]|] eqn:S; [|discriminate]. destruct (run st1 h) as [[st2 os2]|] eqn:R2; [|discriminate]. injection R as <- <-.
  cbn [concat] in *. rewrite in_app_iff in *. pose proof (step_effect _ _ _ _ _ H S) as E.
  destruct (barren_step _ _ _ _ _ _ H G B E) as (B1 & G1 & N1); [tauto|]. intros [X|X]; [exact (N1 _ _ _ X)|].
  revert X. eapply IH; [eapply effect_shape; eassumption|exact G1|exact B1|exact R2|tauto].
Qed.

(** ** A document leads to a server *)
Lemma run_one st l st' o : step st l = Some (st', o) -> run st [l] = Some (st', [o]).
Proof. intros H. cbn [run]. rewrite H. reflexivity. Qed.
Lemma run_join st h1 st1 os1 h2 st2 os2 : run st h1 = Some (st1, os1) -> run st1 h2 = Some (st2, os2) -> run st (h1 ++ h2) = Some (st2, os1 ++ os2).
Proof.
  revert st os1. induction h1 as [|l h1 IH]; intros st os1 A B; cbn [run app] in *; [injection A as <- <-; exact B|].
  destruct (step st l) as [[st0 o]|]; [|discriminate]. destruct (run st0 h1) as [[st3 os3]|] eqn:R; [|discriminate]. injection A as <- <-.
  rewrite (IH _ _ R B). reflexivity.
Qed.
Lemma meta_leads st t g ac f sv dv m fa : nth_error (tasks st) t = Some (Task g ac (WMeta f sv dv)) -> nth_error (gens st) g = Some fa ->
  exists st' os, run st [LMeta t (IsMetadata m) None; LMeta t (IsMetadata m) None] = Some (st', os) /\ In (OStart f sv dv (init_options m)) (concat os).
Proof.
  intros T G. cbn [run step]. rewrite T. cbn [set_task tasks gens]. rewrite (nth_update_same _ _ _ _ T), G.
  match goal with |- context [over ?a ?b ?c ?d] => destruct (over a b c d) as [st1 o1] end.
  eexists. eexists. split; [reflexivity|]. cbn. auto.
Qed.
Lemma stat_leads st t g ac d f execs m fa : nth_error (tasks st) t = Some (Task g ac (WStat d f)) -> nth_error (gens st) g = Some fa ->
  ~ In f (f_spaces fa) -> is_move_document d = true ->
  exists answers st' os sv dv, Forall (agrees t execs m) answers /\ run st answers = Some (st', os) /\ In (OStart f sv dv (init_options m)) (concat os).
Proof.
  intros T G NI MD. assert (MF : mem f (f_spaces fa) = false).
  { destruct (mem f (f_spaces fa)) eqn:M; [|reflexivity]. apply mem_spec in M. contradiction. }
  set (a2 := [LMeta t (IsMetadata m) None; LMeta t (IsMetadata m) None]).
  assert (AG : Forall (agrees t execs m) a2) by (unfold agrees; repeat constructor; eauto).
  assert (ENTER : forall k e st0 fa0, nth_error (gens st0) g = Some fa0 -> f_spaces fa0 = f_spaces fa -> t_gen k = g -> nth_error (tasks st0) t <> None ->
     exists st1, enter t k d f e st0 = (st1, []) /\ exists ac', nth_error (tasks st1) t = Some (Task g ac' (WMeta f (snd e) (fst e))) /\ exists fa1, nth_error (gens st1) g = Some fa1).
  { intros k e st0 fa0 G0 SP KG T0. unfold enter. rewrite KG, G0, SP, MF, MD. eexists. split; [reflexivity|]. exists (t_activates k).
    cbn [set_task set_gen tasks gens]. destruct (nth_error (tasks st0) t) as [x|] eqn:X; [|congruence].
    rewrite (nth_update_same _ _ _ _ X), (nth_update_same _ _ _ _ G0). eauto. }
  destruct (f_execs fa) as [e|] eqn:X.
  - destruct (ENTER (Task g ac (WStat d f)) e st fa G eq_refl eq_refl) as (st1 & E & ac' & T1 & fa1 & G1); [congruence|].
    destruct (meta_leads st1 t g ac' f (snd e) (fst e) m fa1 T1 G1) as (st2 & os & R & I).
    exists (LStat t true :: a2), st2, ([] :: os), (snd e), (fst e). split; [constructor; [left; reflexivity|exact AG]|]. split; [|exact I].
    apply (run_join st [LStat t true] st1 [[]] a2 st2 os); [|exact R]. apply run_one. cbn [step]. rewrite T, G. cbn [option_map]. rewrite X, E. reflexivity.
  - set (st0 := set_task t (Task g ac (WBoot d f)) st).
    set (st00 := set_gen g (Factory (Some execs) (f_spaces fa) (f_active fa)) st0).
    destruct (ENTER (Task g ac (WBoot d f)) execs st00 (Factory (Some execs) (f_spaces fa) (f_active fa))) as (st1 & E & ac' & T1 & fa1 & G1); try reflexivity.
    + cbn. apply (nth_update_same _ _ _ _ G).
    + cbn. rewrite (nth_update_same _ _ _ _ T). discriminate.
    + destruct (meta_leads st1 t g ac' f (snd execs) (fst execs) m fa1 T1 G1) as (st2 & os & R & I).
      exists (LStat t true :: LBoot t (Some execs) :: a2), st2, ([] :: [] :: os), (snd execs), (fst execs).
      split; [constructor; [left; reflexivity|constructor; [right; left; reflexivity|exact AG]]|]. split; [|exact I].
      apply (run_join st [LStat t true] st0 [[]] (LBoot t (Some execs) :: a2) st2 ([] :: os)).
      * apply run_one. cbn [step]. rewrite T, G. cbn [option_map]. rewrite X. reflexivity.
      * apply (run_join st0 [LBoot t (Some execs)] st1 [[]] a2 st2 os); [|exact R]. apply run_one. cbn [step st0 set_task tasks gens].
        rewrite (nth_update_same _ _ _ _ T), G. fold st0. fold st00. rewrite E. reflexivity.
Qed.
Lemma begin_init_some g d f st : d_folder d = Some f -> begin_init g false (Some d) st = (add_task (Task g false (WStat d f)) st, []).
Proof. intros F. unfold begin_init. rewrite F. reflexivity. Qed.
Lemma editor_step s st d f : shape s st -> gens st <> [] -> d_folder d = Some f ->
  step st (LEditor (Some d)) = Some (add_task (Task (pred (length (gens st))) false (WStat d f)) st, []).
Proof.
  intros SH GN F. cbn [step]. f_equal. assert (NI : s <> Idle) by (intros X; apply (sh_idle _ _ SH) in X; contradiction).
  destruct s; [congruence| | |].
  - rewrite (sh_early _ _ SH) by auto. rewrite deliver_early. apply begin_init_some. exact F.
  - rewrite (sh_full _ _ SH eq_refl), deliver_full. apply begin_init_some. exact F.
  - rewrite (sh_early _ _ SH) by auto. rewrite deliver_early. apply begin_init_some. exact F.
Qed.
