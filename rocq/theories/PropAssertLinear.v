(** C84: what the check that running times grow linearly accepts. *)
From Verif Require Import Base.
From Coq Require Import QArith Qabs Qfield Lqa.
From Verif Require Import AssertLinear AssertLinearSpec AssertLinearProofs.
Local Open Scope Q_scope.

(** ** Rounds *)
Lemma finish_total l : l <> [] -> exists v, finish l = Ok v.
Proof.
  intros H. assert (Hx : map fst l <> []) by (destruct l; [congruence|discriminate]). assert (Hy : map snd l <> []) by (destruct l; [congruence|discriminate]).
  destruct (normalize_spec _ Hx) as (mx & _ & Ex). destruct (normalize_spec _ Hy) as (my & _ & Ey). unfold finish. rewrite Ex, Ey. cbn [bind]. eauto.
Qed.
Lemma take_samples_eq s r rest ss : take_samples (Round s r :: rest) ss = Ok (Round (s ++ ss) r :: rest).
Proof.
  revert s. induction ss as [|x ss IH]; intros s; cbn [take_samples]; [rewrite app_nil_r; reflexivity|].
  cbn [take_sample bind r_samples r_linear]. rewrite IH, <- app_assoc. reflexivity.
Qed.
Lemma rounds_loop_S fuel measure i rounds : rounds_loop (S fuel) measure i rounds =
  (let! (go, rounds) := next_round rounds in
   if go then let! rounds := take_samples rounds (measure i) in rounds_loop fuel measure (S i) rounds else Ok (i, rounds)).
Proof. reflexivity. Qed.
Lemma one_round fuel measure i rounds v : finish (measure i) = Ok v ->
  (forall r rest, rounds = r :: rest -> finish (r_samples r) = Ok false) -> existsb r_linear rounds = false -> (length rounds < 4)%nat ->
  rounds_loop (S (S fuel)) measure i rounds =
  (if v then Ok (S i, Round (measure i) true :: map (fun r => Round (r_samples r) false) rounds)
   else rounds_loop (S fuel) measure (S i) (Round (measure i) false :: map (fun r => Round (r_samples r) false) rounds)).
Proof.
  intros V F E L. 
  assert (N : next_round rounds = Ok (true, Round [] false :: map (fun r => Round (r_samples r) false) rounds)).
  { unfold next_round. assert (M : map (fun r => Round (r_samples r) false) rounds = rounds).
    { clear -E. induction rounds as [|[s b] rounds IH]; [reflexivity|]. cbn [existsb r_linear] in E. apply orb_false_iff in E as [-> E]. cbn [map r_samples]. rewrite IH; auto. }
    rewrite M. destruct rounds as [|[s b] rest].
    - reflexivity.
    - rewrite (F _ _ eq_refl). cbn [bind r_samples]. cbn [existsb r_linear] in E. apply orb_false_iff in E as [-> E].
      cbn [existsb r_linear]. rewrite E. cbn [orb]. destruct (Nat.eqb_spec (length (Round s false :: rest)) 4) as [X|X]; [cbn [length] in *; lia|]. reflexivity. }
  rewrite rounds_loop_S, N. cbn [bind]. rewrite take_samples_eq. cbn [app bind].
  destruct v; [|reflexivity]. rewrite rounds_loop_S. unfold next_round. cbn [r_samples]. rewrite V. cbn [bind existsb r_linear orb]. reflexivity.
Qed.
Definition done (l : list (list sample)) : list round := map (fun s => Round s false) l.
Lemma done_linear l : existsb r_linear (done l) = false.
Proof. induction l; auto. Qed.
Lemma done_map l : map (fun r => Round (r_samples r) false) (done l) = done l.
Proof. unfold done. rewrite map_map. reflexivity. Qed.
Lemma done_failed l : forallb (fun r => negb (r_linear r)) (done l) = true.
Proof. induction l; auto. Qed.
Lemma step_false measure i fuel l : finish (measure i) = Ok false -> (forall s r, l = s :: r -> finish s = Ok false) -> (length l < 4)%nat ->
  rounds_loop (S (S fuel)) measure i (done l) = rounds_loop (S fuel) measure (S i) (done (measure i :: l)).
Proof.
  intros V F L. rewrite (one_round fuel measure i (done l) false V).
  - rewrite done_map. reflexivity.
  - destruct l as [|s l]; [discriminate|]. intros r rest E. injection E as <- <-. exact (F _ _ eq_refl).
  - apply done_linear.
  - unfold done. rewrite map_length. exact L.
Qed.
Lemma step_true measure i fuel l : finish (measure i) = Ok true -> (forall s r, l = s :: r -> finish s = Ok false) -> (length l < 4)%nat ->
  rounds_loop (S (S fuel)) measure i (done l) = Ok (S i, Round (measure i) true :: done l).
Proof.
  intros V F L. rewrite (one_round fuel measure i (done l) true V).
  - rewrite done_map. reflexivity.
  - destruct l as [|s l]; [discriminate|]. intros r rest E. injection E as <- <-. exact (F _ _ eq_refl).
  - apply done_linear.
  - unfold done. rewrite map_length. exact L.
Qed.
Lemma outcome measure (v : nat -> bool) : (forall i, (i < 4)%nat -> finish (measure i) = Ok (v i)) ->
  assert_linear measure = if v 0%nat then Ok 1%nat else if v 1%nat then Ok 2%nat else if v 2%nat then Ok 3%nat else if v 3%nat then Ok 4%nat else Panic PUnreachable.
Proof.
  intros V. pose proof (V 0%nat ltac:(lia)) as V0. pose proof (V 1%nat ltac:(lia)) as V1. pose proof (V 2%nat ltac:(lia)) as V2. pose proof (V 3%nat ltac:(lia)) as V3.
  unfold assert_linear. change (@nil round) with (done []).
  destruct (v 0%nat). { rewrite step_true; [reflexivity|exact V0|discriminate|cbn; lia]. }
  rewrite step_false; [|exact V0|discriminate|cbn; lia].
  destruct (v 1%nat). { rewrite step_true; [reflexivity|exact V1|intros s r E; injection E as <- <-; exact V0|cbn; lia]. }
  rewrite step_false; [|exact V1|intros s r E; injection E as <- <-; exact V0|cbn; lia].
  destruct (v 2%nat). { rewrite step_true; [reflexivity|exact V2|intros s r E; injection E as <- <-; exact V1|cbn; lia]. }
  rewrite step_false; [|exact V2|intros s r E; injection E as <- <-; exact V1|cbn; lia].
  destruct (v 3%nat). { rewrite step_true; [reflexivity|exact V3|intros s r E; injection E as <- <-; exact V2|cbn; lia]. }
  rewrite step_false; [|exact V3|intros s r E; injection E as <- <-; exact V2|cbn; lia].
  cbn [rounds_loop]. unfold next_round. cbn [done map]. cbn [r_samples]. rewrite V3. reflexivity.
Qed.

(** The test passes if and only if one of at most four rounds looks linear; it
    stops measuring with the first one that does. *)
Theorem C84_passes_iff : forall measure, (forall i, (i < 4)%nat -> measure i <> []) -> forall n,
  assert_linear measure = Ok n <->
  exists k, n = S k /\ (k < 4)%nat /\ finish (measure k) = Ok true /\ forall i, (i < k)%nat -> finish (measure i) = Ok false.
Proof.
  intros measure H n.
  assert (X : exists v, forall i, (i < 4)%nat -> finish (measure i) = Ok (v i)).
  { exists (fun i => match finish (measure i) with Ok b => b | _ => false end). intros i I. destruct (finish_total _ (H i I)) as [b ->]. reflexivity. }
  destruct X as [v V]. rewrite (outcome measure v V). split.
  - intros E. destruct (v 0%nat) eqn:E0; [|destruct (v 1%nat) eqn:E1; [|destruct (v 2%nat) eqn:E2; [|destruct (v 3%nat) eqn:E3; [|discriminate E]]]]; injection E as <-;
    eexists; (split; [reflexivity|]); (split; [lia|]); (split; [rewrite V by lia; congruence|]); intros i I; rewrite V by lia; f_equal.
    + lia.
    + assert (i = 0%nat) by lia. congruence.
    + assert (i = 0%nat \/ i = 1%nat) as [->| ->] by lia; congruence.
    + assert (i = 0%nat \/ i = 1%nat \/ i = 2%nat) as [->|[->| ->]] by lia; congruence.
  - intros (k & -> & L & T & F).
    assert (W : v k = true) by (rewrite V in T by lia; congruence).
    assert (U : forall i, (i < k)%nat -> v i = false) by (intros i I; specialize (F i I); rewrite V in F by lia; congruence).
    destruct k as [|[|[|[|k]]]]; [| | | |lia]; rewrite ?(U 0%nat), ?(U 1%nat), ?(U 2%nat) by lia; rewrite W; reflexivity.
Qed.
Theorem C84_fails_iff : forall measure, (forall i, (i < 4)%nat -> measure i <> []) ->
  (exists w, assert_linear measure = Panic w) <-> forall i, (i < 4)%nat -> finish (measure i) = Ok false.
Proof.
  intros measure H.
  assert (X : exists v, forall i, (i < 4)%nat -> finish (measure i) = Ok (v i)).
  { exists (fun i => match finish (measure i) with Ok b => b | _ => false end). intros i I. destruct (finish_total _ (H i I)) as [b ->]. reflexivity. }
  destruct X as [v V]. rewrite (outcome measure v V). split.
  - intros [w E] i I. rewrite V by exact I. f_equal.
    destruct (v 0%nat) eqn:E0; [discriminate|]. destruct (v 1%nat) eqn:E1; [discriminate|]. destruct (v 2%nat) eqn:E2; [discriminate|]. destruct (v 3%nat) eqn:E3; [discriminate|].
    assert (i = 0%nat \/ i = 1%nat \/ i = 2%nat \/ i = 3%nat) as [->|[->|[->| ->]]] by lia; assumption.
  - intros F. assert (U : forall i, (i < 4)%nat -> v i = false) by (intros i I; specialize (F i I); rewrite V in F by lia; congruence).
    rewrite !U by lia. eauto.
Qed.

(** ** What looks linear *)
(** Measurements on a line do unless the line starts too far below zero. *)
Theorem C84_lines : forall l a b my, two_sizes l -> (exists mx, largest mx (map fst l) /\ ~ mx == 0) -> largest my (map snd l) -> ~ my == 0 ->
  on_line a b l -> (finish l = Ok true <-> - (1 # 10) < a / my).
Proof.
  intros l a b my T (mx & Lx & Nx) Ly Ny O. assert (H : l <> []) by (destruct T as (p & q & I & _); destruct l; [destruct I|discriminate]).
  destruct (finish_normal l mx my H Lx Ly Nx Ny T) as (mx' & my' & a1 & b1 & Qx & Qy & N & U & F & _).
  assert (Nx' : ~ mx' == 0) by (rewrite Qx; exact Nx). assert (Ny' : ~ my' == 0) by (rewrite Qy; exact Ny).
  assert (P : forall p, In p (scale mx' my' l) -> snd p == a / my' + b * mx' / my' * fst p).
  { intros p I. apply in_map_iff in I as (q & <- & I). cbn [fst snd]. unfold on_line in O. rewrite Forall_forall in O. rewrite (O q I). field. split; assumption. }
  assert (N' : normal (scale mx' my' l) (a / my') (b * mx' / my')).
  { split; (etransitivity; [apply Sum_ext with (g := fun _ => 0 * 0)|rewrite Sum_scale; ring]); intros p I; rewrite (P p I); ring. }
  destruct (U _ _ N') as [A B]. rewrite F.
  assert (D : distance a1 b1 (scale mx' my' l) == 0).
  { assert (G : forall l', (forall p, In p l' -> snd p == a / my' + b * mx' / my' * fst p) -> distance a1 b1 l' == 0).
    { induction l' as [|p l' IH]; intros G; [reflexivity|]. cbn [distance]. rewrite IH by (intros q I; apply G; right; exact I). rewrite (G p) by (left; reflexivity). rewrite A, B. ring. }
    apply G. exact P. }
  assert (E : big_error a1 b1 (scale mx' my' l) == 0) by (apply big_error_zero; intros p I; rewrite (P p I), A, B; reflexivity).
  rewrite D, E, A, Qy. assert (Z : 0 / qlen l == 0) by (unfold Qdiv; ring). rewrite Z. unfold sq. split; [tauto|]. intros X. repeat split; auto; lra.
Qed.
(** What looks linear is near a line that does not start far below zero: scaled
    to at most 1, all measurements are within a tenth of it. *)
Theorem C84_near_a_line : forall l, finish l = Ok true -> exists mx my a b,
  largest mx (map fst l) /\ largest my (map snd l) /\ - (1 # 10) < a /\
  Forall (fun p => Qabs ((a + b * (fst p / mx)) - snd p / my) < 1 # 10) l.
Proof.
  intros l E. assert (H : l <> []) by (intros ->; discriminate E).
  assert (Hx : map fst l <> []) by (destruct l; [congruence|discriminate]). assert (Hy : map snd l <> []) by (destruct l; [congruence|discriminate]).
  destruct (normalize_spec _ Hx) as (mx & Lx & Ex). destruct (normalize_spec _ Hy) as (my & Ly & Ey).
  unfold finish in E. rewrite Ex, Ey in E. cbn [bind] in E. destruct (Qeq_bool mx 0); [discriminate|]. destruct (Qeq_bool my 0); [discriminate|].
  rewrite <- (scale_fst mx my), <- (scale_snd mx my) in E.
  destruct (regression _ _) as [[a b]|]; [|discriminate]. injection E as E.
  assert (H' : scale mx my l <> []) by (destruct l; [congruence|discriminate]). apply (looks_linear_iff _ a b H') in E as (_ & B & A).
  exists mx, my, a, b. repeat (split; [assumption|]). apply Forall_forall. intros p I.
  eapply Qle_lt_trans; [|exact B]. apply (big_error_bound a b (scale mx my l) (fst p / mx, snd p / my)).
  apply (in_map (fun p => (fst p / mx, snd p / my))). exact I.
Qed.
(** The line compared with is the one with the least squares. *)
Theorem C84_best_line : forall l a b, l <> [] -> regression (map fst l) (map snd l) = Some (a, b) ->
  forall a' b', distance a b l <= distance a' b' l.
Proof. intros l a b H R a' b'. apply normal_best. exact (proj1 (regression_normal l a b H R)). Qed.

(** What looks linear, exactly: scaled to at most 1, the mean of the squares of
    the distances from the best line is less than 0.05 squared, no measurement is
    a tenth or more away from it, and it does not start a tenth or more below
    zero. *)
Lemma big_error_iff a b l c : 0 < c -> (big_error a b l < c <-> Forall (fun p => Qabs ((a + b * fst p) - snd p) < c) l).
Proof.
  intros C. split.
  - intros B. apply Forall_forall. intros p I. eapply Qle_lt_trans; [apply (big_error_bound a b l p I)|exact B].
  - unfold big_error. revert C. generalize 0. induction l as [|p l IH]; intros m C F; cbn [fold_left]; [exact C|].
    inversion F; subst. cbv zeta. apply IH; [|assumption]. destruct (Qle_bool m _); assumption.
Qed.
Theorem C84_criterion : forall l mx my, l <> [] -> two_sizes l -> largest mx (map fst l) -> largest my (map snd l) -> ~ mx == 0 -> ~ my == 0 ->
  exists mx' my' a b, mx' == mx /\ my' == my /\
    let scaled := map (fun p => (fst p / mx', snd p / my')) l in
    (forall a' b', distance a b scaled <= distance a' b' scaled) /\
    (finish l = Ok true <->
     distance a b scaled / inject_Z (Z.of_nat (length l)) < (5 # 100) * (5 # 100) /\
     Forall (fun p => Qabs ((a + b * fst p) - snd p) < 1 # 10) scaled /\ - (1 # 10) < a).
Proof.
  intros l mx my H T Lx Ly Nx Ny. destruct (finish_normal l mx my H Lx Ly Nx Ny T) as (mx' & my' & a & b & Qx & Qy & N & _ & F & _).
  exists mx', my', a, b. split; [exact Qx|]. split; [exact Qy|]. cbv zeta. fold (scale mx' my' l). split; [intros a' b'; apply normal_best; exact N|].
  rewrite F, big_error_iff by reflexivity. fold (qlen l). change (inject_Z (Z.of_nat (length l))) with (qlen l). unfold sq.
  setoid_replace ((1 # 20) * (1 # 20)) with ((5 # 100) * (5 # 100)) by reflexivity. reflexivity.
Qed.

(** Times that grow with the square of the size never look linear. *)
Definition q (i : nat) : Q := inject_Z (Z.of_nat i).
Lemma q_S i : q (S i) == q i + 1.
Proof. unfold q. rewrite Nat2Z.inj_succ. unfold Z.succ. rewrite inject_Z_plus. reflexivity. Qed.
Lemma Sum_seq (f : nat -> Q) n : Sum f (seq 1 (S n)) == Sum f (seq 1 n) + f (S n).
Proof.
  rewrite seq_S. generalize (seq 1 n). intros l. cbn [Nat.add]. induction l as [|x l IH]; cbn [app]; rewrite ?Sum_cons; [cbn; ring|]. rewrite IH. ring.
Qed.
Lemma Sum_0 n : Sum (fun _ : nat => 1) (seq 1 n) == q n.
Proof. induction n as [|n IH]; [reflexivity|]. rewrite Sum_seq, IH, q_S. ring. Qed.
Lemma Sum_1 n : Sum q (seq 1 n) == q n * (q n + 1) / (2 # 1).
Proof. induction n as [|n IH]; [reflexivity|]. rewrite Sum_seq, IH, q_S. field. Qed.
Lemma Sum_2 n : Sum (fun i => q i * q i) (seq 1 n) == q n * (q n + 1) * ((2 # 1) * q n + 1) / (6 # 1).
Proof. induction n as [|n IH]; [reflexivity|]. rewrite Sum_seq, IH, q_S. field. Qed.
Lemma Sum_3 n : Sum (fun i => q i * q i * q i) (seq 1 n) == q n * q n * (q n + 1) * (q n + 1) / (4 # 1).
Proof. induction n as [|n IH]; [reflexivity|]. rewrite Sum_seq, IH, q_S. field. Qed.
Theorem C84_squares_fail : forall n s c, (2 <= n)%nat -> 0 < s -> 0 < c -> finish (quadratic n s c) = Ok false.
Proof.
  intros n s c Hn Hs Hc. set (l := quadratic n s c).
  assert (Pn : 0 < q n) by (unfold q; change 0 with (inject_Z 0); rewrite <- Zlt_Qlt; lia).
  assert (M : forall i, In i (seq 1 n) -> 0 < q i /\ q i <= q n).
  { intros i I. apply in_seq in I. unfold q. change 0 with (inject_Z 0). rewrite <- Zlt_Qlt, <- Zle_Qle. lia. }
  assert (T : two_sizes l).
  { exists (s * q 1, c * (q 1 * q 1)), (s * q 2, c * (q 2 * q 2)).
    split; [apply (in_map (fun i => (s * q i, c * (q i * q i)))); apply in_seq; lia|]. split; [apply (in_map (fun i => (s * q i, c * (q i * q i)))); apply in_seq; lia|].
    cbn [fst]. change (q 1) with 1. change (q 2) with (2 # 1). lra. }
  assert (H : l <> []) by (destruct T as (p & p' & I & _); intros X; rewrite X in I; destruct I).
  assert (Lx : largest (s * q n) (map fst l)).
  { split; [unfold l, quadratic; rewrite map_map; apply (in_map (fun i => s * q i)); apply in_seq; lia|].
    apply Forall_forall. intros x I. unfold l, quadratic in I. rewrite map_map in I. apply in_map_iff in I as (i & <- & I). cbn [fst]. fold (q i).
    destruct (M i I). rewrite !(Qmult_comm s). apply Qmult_le_compat_r; lra. }
  assert (Ly : largest (c * (q n * q n)) (map snd l)).
  { split; [unfold l, quadratic; rewrite map_map; apply (in_map (fun i => c * (q i * q i))); apply in_seq; lia|].
    apply Forall_forall. intros x I. unfold l, quadratic in I. rewrite map_map in I. apply in_map_iff in I as (i & <- & I). cbn [snd]. fold (q i).
    destruct (M i I) as [A B]. rewrite !(Qmult_comm c). apply Qmult_le_compat_r; [|lra].
    nra. }
  assert (Nx : ~ s * q n == 0) by (intros X; apply Qmult_integral in X as [X|X]; lra).
  assert (Nn : ~ q n * q n == 0) by (intros X; apply Qmult_integral in X as [X|X]; lra).
  assert (Ny : ~ c * (q n * q n) == 0) by (intros X; apply Qmult_integral in X as [X|X]; [lra|contradiction]).
  destruct (finish_normal l _ _ H Lx Ly Nx Ny T) as (mx & my & a & b & Qx & Qy & N & U & F & v & V).
  set (a0 := - ((q n + 1) * (q n + (2 # 1)) / ((6 # 1) * (q n * q n)))). set (b0 := (q n + 1) / q n).
  assert (R : forall i, snd (s * q i / mx, c * (q i * q i) / my) - (a0 + b0 * fst (s * q i / mx, c * (q i * q i) / my)) ==
    / (q n * q n) * (q i * q i) + (- (q n + 1) / (q n * q n)) * q i + ((q n + 1) * (q n + (2 # 1)) / ((6 # 1) * (q n * q n))) * 1).
  { intros i. cbn [fst snd]. rewrite Qx, Qy. unfold a0, b0. field. repeat split; lra. }
  assert (N0 : normal (scale mx my l) a0 b0).
  { unfold normal, scale, l, quadratic. rewrite !Sum_map. split.
    - etransitivity; [apply Sum_ext; intros i _; exact (R i)|]. rewrite !Sum_plus, !Sum_scale, Sum_0, Sum_1, Sum_2. field. repeat split; lra.
    - etransitivity; [apply Sum_ext with (g := fun i => (s / mx * / (q n * q n)) * (q i * q i * q i) + (s / mx * (- (q n + 1) / (q n * q n))) * (q i * q i) + (s / mx * ((q n + 1) * (q n + (2 # 1)) / ((6 # 1) * (q n * q n)))) * q i)|].
      + intros i _. cbn [fst snd]. etransitivity; [apply Qmult_comp; [exact (R i)|reflexivity]|]. cbn [fst snd]. fold (q i). rewrite Qx. field. repeat split; lra.
      + rewrite !Sum_plus, !Sum_scale. fold q. rewrite Sum_1, Sum_2, Sum_3. field. rewrite Qx. repeat split; first [lra|exact Nx]. }
  destruct (U _ _ N0) as [A _].
  assert (L : a <= - (1 # 6)).
  { rewrite A. unfold a0. setoid_replace ((q n + 1) * (q n + (2 # 1)) / ((6 # 1) * (q n * q n))) with ((1 # 6) + ((1 # 2) * / q n + (1 # 3) * (/ q n * / q n))) by (field; lra).
    assert (0 < / q n) by (apply Qinv_lt_0_compat; exact Pn). assert (0 < / q n * / q n) by (apply Qmult_lt_0_compat; assumption). lra. }
  rewrite V in F |- *. destruct v; [|reflexivity]. exfalso. destruct (proj1 F eq_refl) as (_ & _ & X). lra.
Qed.
(** Nor do times with a linear part, if at the largest size the quadratic part is
    at least one and a half times as large. *)
Theorem C84_mixed_fail : forall n s c e, (2 <= n)%nat -> 0 < s -> 0 < c -> 0 <= e -> (3 # 2) * e <= c * inject_Z (Z.of_nat n) -> finish (mixed n s c e) = Ok false.
Proof.
  intros n s c e Hn Hs Hc He Hm. set (l := mixed n s c e). fold (q n) in Hm.
  assert (Pn : 0 < q n) by (unfold q; change 0 with (inject_Z 0); rewrite <- Zlt_Qlt; lia).
  assert (M : forall i, In i (seq 1 n) -> 0 < q i /\ q i <= q n).
  { intros i I. apply in_seq in I. unfold q. change 0 with (inject_Z 0). rewrite <- Zlt_Qlt, <- Zle_Qle. lia. }
  assert (T : two_sizes l).
  { exists (s * q 1, c * (q 1 * q 1) + e * q 1), (s * q 2, c * (q 2 * q 2) + e * q 2).
    split; [apply (in_map (fun i => (s * q i, c * (q i * q i) + e * q i))); apply in_seq; lia|]. split; [apply (in_map (fun i => (s * q i, c * (q i * q i) + e * q i))); apply in_seq; lia|].
    cbn [fst]. change (q 1) with 1. change (q 2) with (2 # 1). lra. }
  assert (H : l <> []) by (destruct T as (p & p' & I & _); intros X; rewrite X in I; destruct I).
  assert (Lx : largest (s * q n) (map fst l)).
  { split; [unfold l, mixed; rewrite map_map; apply (in_map (fun i => s * q i)); apply in_seq; lia|].
    apply Forall_forall. intros x I. unfold l, mixed in I. rewrite map_map in I. apply in_map_iff in I as (i & <- & I). cbn [fst]. fold (q i).
    destruct (M i I). rewrite !(Qmult_comm s). apply Qmult_le_compat_r; lra. }
  set (top := c * (q n * q n) + e * q n) in *.
  assert (Ly : largest top (map snd l)).
  { split; [unfold l, mixed; rewrite map_map; apply (in_map (fun i => c * (q i * q i) + e * q i)); apply in_seq; lia|].
    apply Forall_forall. intros x I. unfold l, mixed in I. rewrite map_map in I. apply in_map_iff in I as (i & <- & I). cbn [snd]. fold (q i).
    destruct (M i I) as [A B]. unfold top. apply Qplus_le_compat.
    - rewrite !(Qmult_comm c). apply Qmult_le_compat_r; [nra|lra].
    - rewrite !(Qmult_comm e). apply Qmult_le_compat_r; lra. }
  assert (Pn2 : 0 < q n * q n) by (apply Qmult_lt_0_compat; assumption).
  assert (Pe : 0 <= e * q n) by (apply Qmult_le_0_compat; lra).
  assert (Pc : 0 < c * (q n * q n)) by (apply Qmult_lt_0_compat; assumption).
  assert (Pt : 0 < top) by (unfold top; lra).
  assert (Ps : 0 < s * q n) by (apply Qmult_lt_0_compat; assumption).
  destruct (finish_normal l _ _ H Lx Ly ltac:(lra) ltac:(lra) T) as (mx & my & a & b & Qx & Qy & N & U & F & v & V).
  set (a0 := - (c * ((q n + 1) * (q n + (2 # 1))) / ((6 # 1) * top))). set (b0 := (c * (q n + 1) + e) * q n / top).
  assert (R : forall i, snd (s * q i / mx, (c * (q i * q i) + e * q i) / my) - (a0 + b0 * fst (s * q i / mx, (c * (q i * q i) + e * q i) / my)) ==
    c / top * (q i * q i) + (- (c * (q n + 1)) / top) * q i + (c * ((q n + 1) * (q n + (2 # 1))) / ((6 # 1) * top)) * 1).
  { intros i. cbn [fst snd]. rewrite Qx, Qy. unfold a0, b0. field. repeat split; lra. }
  assert (N0 : normal (scale mx my l) a0 b0).
  { unfold normal, scale, l, mixed. rewrite !Sum_map. split.
    - etransitivity; [apply Sum_ext; intros i _; exact (R i)|]. rewrite !Sum_plus, !Sum_scale, Sum_0, Sum_1, Sum_2. field. repeat split; lra.
    - etransitivity; [apply Sum_ext with (g := fun i => (s / mx * (c / top)) * (q i * q i * q i) + (s / mx * (- (c * (q n + 1)) / top)) * (q i * q i) + (s / mx * (c * ((q n + 1) * (q n + (2 # 1))) / ((6 # 1) * top))) * q i)|].
      + intros i _. cbn [fst snd]. etransitivity; [apply Qmult_comp; [exact (R i)|reflexivity]|]. cbn [fst snd]. fold (q i). rewrite Qx. field. repeat split; lra.
      + rewrite !Sum_plus, !Sum_scale. fold q. rewrite Sum_1, Sum_2, Sum_3. field. rewrite Qx. repeat split; lra. }
  destruct (U _ _ N0) as [A _].
  assert (L : a <= - (1 # 10)).
  { rewrite A. unfold a0. apply Qopp_le_compat. apply Qle_shift_div_l; [lra|].
    assert (X : e * q n <= (2 # 3) * (c * (q n * q n))).
    { setoid_replace ((2 # 3) * (c * (q n * q n))) with ((2 # 3) * (c * q n) * q n) by ring. apply Qmult_le_compat_r; lra. }
    assert (Y : 0 < c * q n) by (apply Qmult_lt_0_compat; assumption).
    setoid_replace (c * ((q n + 1) * (q n + (2 # 1)))) with (c * (q n * q n) + (3 # 1) * (c * q n) + (2 # 1) * c) by ring. unfold top. lra. }
  rewrite V in F |- *. destruct v; [|reflexivity]. exfalso. destruct (proj1 F eq_refl) as (_ & _ & X). lra.
Qed.
(** *** The theorems are not about nothing *)
Example times : list sample := [(10 # 1, 7 # 1); (20 # 1, 12 # 1); (30 # 1, 17 # 1)].
Example times_line : two_sizes times /\ (exists mx, largest mx (map fst times) /\ ~ mx == 0) /\ largest (17 # 1) (map snd times) /\ ~ (17 # 1) == 0 /\ on_line (2 # 1) (1 # 2) times /\ - (1 # 10) < (2 # 1) / (17 # 1).
Proof.
  split. { exists (10 # 1, 7 # 1), (20 # 1, 12 # 1). cbn [times In fst]. repeat split; auto. discriminate. }
  split. { exists (30 # 1). split; [|discriminate]. split; [cbn; auto|]. repeat constructor; discriminate. }
  split. { split; [cbn; auto|]. repeat constructor; discriminate. }
  split; [discriminate|]. split; [|reflexivity]. repeat constructor.
Qed.
(** a line that starts far below zero *)
Example low_line : on_line (- (10 # 1)) 1 [(20 # 1, 10 # 1); (30 # 1, 20 # 1)] /\ finish [(20 # 1, 10 # 1); (30 # 1, 20 # 1)] = Ok false.
Proof. split; [repeat constructor|vm_compute; reflexivity]. Qed.
(** something near a line and something not near enough *)
Example near : finish [(10 # 1, 100 # 1); (20 # 1, 205 # 1); (30 # 1, 298 # 1)] = Ok true.
Proof. vm_compute. reflexivity. Qed.
Example not_near : finish [(10 # 1, 100 # 1); (20 # 1, 250 # 1); (30 # 1, 298 # 1)] = Ok false.
Proof. vm_compute. reflexivity. Qed.
(** the third round is the first that looks linear *)
Example third_round : assert_linear (fun i => if (i <? 2)%nat then quadratic 3 1 1 else times) = Ok 3%nat.
Proof. vm_compute. reflexivity. Qed.
Example no_round : assert_linear (fun _ => quadratic 3 1 1) = Panic PUnreachable.
Proof. vm_compute. reflexivity. Qed.
(** times with a large enough quadratic part, and with a smaller one *)
Example mixed_case : 0 <= (2 # 1) /\ (3 # 2) * (2 # 1) <= 1 * inject_Z (Z.of_nat 3).
Proof. split; discriminate. Qed.
Example hardly_quadratic : finish (mixed 4 1 (1 # 20) 1) = Ok true.
Proof. vm_compute. reflexivity. Qed.
(** a single size gives no line *)
Example one_size : finish [(10 # 1, 7 # 1); (10 # 1, 7 # 1)] = Ok false.
Proof. vm_compute. reflexivity. Qed.
Print Assumptions C84_passes_iff.
Print Assumptions C84_fails_iff.
Print Assumptions C84_lines.
Print Assumptions C84_near_a_line.
Print Assumptions C84_best_line.
Print Assumptions C84_criterion.
Print Assumptions C84_squares_fail.
Print Assumptions C84_mixed_fail.
