(** Sums of rational numbers and the regression. *)
From Verif Require Import Base.
From Coq Require Import QArith Qabs Qfield Lqa.
From Verif Require Import AssertLinear AssertLinearSpec.
Local Open Scope Q_scope.

Definition Sum {A} (f : A -> Q) (l : list A) : Q := fold_right (fun p s => f p + s) 0 l.
Lemma Sum_cons {A} (f : A -> Q) x l : Sum f (x :: l) = f x + Sum f l.
Proof. reflexivity. Qed.
Lemma fold_left_Sum {A} (f : A -> Q) l : forall acc, fold_left (fun n p => n + f p) l acc == acc + Sum f l.
Proof. induction l as [|x l IH]; intros acc; cbn [fold_left]; [cbn; ring|]. rewrite IH, Sum_cons. ring. Qed.
Lemma Sum_ext {A} (f g : A -> Q) l : (forall x, In x l -> f x == g x) -> Sum f l == Sum g l.
Proof. induction l as [|x l IH]; intros H; [reflexivity|]. rewrite !Sum_cons, (H x), IH; [reflexivity|intros y I; apply H; right; exact I|left; reflexivity]. Qed.
Lemma Sum_map {A B} (f : B -> Q) (g : A -> B) l : Sum f (map g l) = Sum (fun x => f (g x)) l.
Proof. induction l as [|x l IH]; [reflexivity|]. cbn [map]. rewrite !Sum_cons, IH. reflexivity. Qed.
Lemma Sum_scale {A} (f : A -> Q) c l : Sum (fun x => c * f x) l == c * Sum f l.
Proof. induction l as [|x l IH]; [cbn; ring|]. rewrite !Sum_cons, IH. ring. Qed.
Lemma Sum_plus {A} (f g : A -> Q) l : Sum (fun x => f x + g x) l == Sum f l + Sum g l.
Proof. induction l as [|x l IH]; [cbn; ring|]. rewrite !Sum_cons, IH. ring. Qed.
Lemma Sum_nonneg {A} (f : A -> Q) l : (forall x, In x l -> 0 <= f x) -> 0 <= Sum f l.
Proof.
  induction l as [|x l IH]; intros H; [cbn; lra|]. rewrite Sum_cons. assert (0 <= f x) by (apply H; left; reflexivity).
  assert (0 <= Sum f l) by (apply IH; intros y I; apply H; right; exact I). lra.
Qed.
Lemma qlen_cons {A} (x : A) l : qlen (x :: l) == 1 + qlen l.
Proof. unfold qlen. cbn [length]. rewrite Nat2Z.inj_succ. unfold Z.succ. rewrite inject_Z_plus. ring. Qed.
Lemma qlen_map {A B} (f : A -> B) l : qlen (map f l) = qlen l.
Proof. unfold qlen. rewrite map_length. reflexivity. Qed.
Lemma qlen_pos {A} (l : list A) : l <> [] -> 0 < qlen l.
Proof.
  destruct l as [|x l]; [congruence|]. intros _. rewrite qlen_cons. unfold qlen.
  assert (0 <= inject_Z (Z.of_nat (length l))) by (change 0 with (inject_Z 0); rewrite <- Zle_Qle; lia). lra.
Qed.

(** ** The regression: the residuals are orthogonal to constants and to sizes *)
Section Regression.
Context (l : list (Q * Q)).
Let n := qlen l.
Let sx := Sum fst l.
Let sy := Sum snd l.
Let sxx := Sum (fun p => fst p * fst p) l.
Let sxy := Sum (fun p => fst p * snd p) l.
Definition normal (a b : Q) : Prop :=
  Sum (fun p => snd p - (a + b * fst p)) l == 0 /\ Sum (fun p => (snd p - (a + b * fst p)) * fst p) l == 0.
Lemma Sum_products c d : Sum (fun p => (fst p - c) * (snd p - d)) l == sxy - d * sx - c * sy + c * d * n.
Proof.
  unfold sxy, sx, sy, n. clear. induction l as [|p r IH]; [cbn; unfold qlen; cbn; ring|]. rewrite !Sum_cons, IH, qlen_cons. ring.
Qed.
Lemma Sum_squares c : Sum (fun p => sq (fst p - c)) l == sxx - (2 # 1) * c * sx + c * c * n.
Proof.
  unfold sxx, sx, n, sq. clear. induction l as [|p r IH]; [cbn; unfold qlen; cbn; ring|]. rewrite !Sum_cons, IH, qlen_cons. ring.
Qed.
Lemma Sum_residuals a b : Sum (fun p => snd p - (a + b * fst p)) l == sy - a * n - b * sx.
Proof. unfold sx, sy, n. clear. induction l as [|p r IH]; [cbn; unfold qlen; cbn; ring|]. rewrite !Sum_cons, IH, qlen_cons. ring. Qed.
Lemma Sum_residuals_x a b : Sum (fun p => (snd p - (a + b * fst p)) * fst p) l == sxy - a * sx - b * sxx.
Proof. unfold sx, sxx, sxy. clear. induction l as [|p r IH]; [cbn; ring|]. rewrite !Sum_cons, IH. ring. Qed.
Lemma mean_fst : mean (map fst l) == sx / n.
Proof. unfold mean, qsum. rewrite qlen_map. pose proof (fold_left_Sum (fun x => x) (map fst l) 0) as E. cbn beta in E. rewrite E, Sum_map. unfold sx, n. rewrite Qplus_0_l. reflexivity. Qed.
Lemma mean_snd : mean (map snd l) == sy / n.
Proof. unfold mean, qsum. rewrite qlen_map. pose proof (fold_left_Sum (fun x => x) (map snd l) 0) as E. cbn beta in E. rewrite E, Sum_map. unfold sy, n. rewrite Qplus_0_l. reflexivity. Qed.
Lemma combine_map : combine (map fst l) (map snd l) = l.
Proof. clear. induction l as [|[x y] r IH]; [reflexivity|]. cbn [map combine fst snd]. rewrite IH. reflexivity. Qed.
Definition spread : Q := Sum (fun p => sq (fst p - mean (map fst l))) l.
Lemma spread_eq : l <> [] -> spread == sxx - sx * sx / n.
Proof. intros H. unfold spread. rewrite Sum_squares, mean_fst. pose proof (qlen_pos l H) as P. fold n in P. field. lra. Qed.
Lemma regression_normal a b : l <> [] -> regression (map fst l) (map snd l) = Some (a, b) -> normal a b /\ ~ spread == 0.
Proof.
  intros H. pose proof (qlen_pos l H) as P. fold n in P. unfold regression. rewrite combine_map.
  set (mx := mean (map fst l)). set (my := mean (map snd l)).
  set (num := fold_left (fun n p => n + (fst p - mx) * (snd p - my)) l 0). set (den := fold_left (fun n p => n + sq (fst p - mx)) l 0).
  assert (En : num == sxy - sx * sy / n).
  { unfold num. etransitivity; [apply (fold_left_Sum (fun p => (fst p - mx) * (snd p - my)))|]. rewrite Sum_products. unfold mx, my. rewrite mean_fst, mean_snd. field. lra. }
  assert (Ed : den == spread) by (unfold den; etransitivity; [apply (fold_left_Sum (fun p => sq (fst p - mx)))|]; unfold spread, mx; ring).
  destruct (Qeq_bool den 0) eqn:Z; [discriminate|]. intros E. injection E as <- <-.
  assert (D : ~ den == 0) by (intros X; apply Qeq_eq_bool in X; congruence).
  split; [|rewrite <- Ed; exact D]. pose proof (spread_eq H) as Es.
  assert (Em : mx == sx / n) by apply mean_fst. assert (Ey : my == sy / n) by apply mean_snd.
  assert (K : sxx == den + sx * sx / n) by (rewrite Ed, Es; ring).
  split.
  - rewrite Sum_residuals, Em, Ey. field; repeat split; first [exact D|lra].
  - rewrite Sum_residuals_x, K, Em, Ey.
    transitivity (sxy - sx * sy / n - num); [field; repeat split; first [exact D|lra]|]. rewrite En. ring.
Qed.
Lemma normal_unique a b a' b' : l <> [] -> ~ spread == 0 -> normal a b -> normal a' b' -> a == a' /\ b == b'.
Proof.
  intros H D [A1 A2] [B1 B2]. rewrite Sum_residuals in A1, B1. rewrite Sum_residuals_x in A2, B2.
  pose proof (qlen_pos l H) as P. fold n in P. pose proof (spread_eq H) as Es.
  assert (X : (b - b') * (n * spread) == 0).
  { rewrite Es.
    transitivity ((b - b') * (n * sxx - sx * sx)); [field; lra|].
    transitivity (sx * ((sy - a * n - b * sx) - (sy - a' * n - b' * sx)) - n * ((sxy - a * sx - b * sxx) - (sxy - a' * sx - b' * sxx))); [ring|].
    rewrite A1, A2, B1, B2. ring. }
  assert (B : b == b').
  { apply Qmult_integral in X as [X|X]; [lra|]. apply Qmult_integral in X as [X|X]; [lra|contradiction]. }
  split; [|exact B].
  assert (Y : (a - a') * n == 0) by (transitivity ((sy - a' * n - b' * sx) - (sy - a * n - b * sx) - (b - b') * sx); [ring|]; rewrite A1, B1, B; ring).
  apply Qmult_integral in Y as [Y|Y]; lra.
Qed.
Lemma normal_best a b a' b' : normal a b -> distance a b l <= distance a' b' l.
Proof.
  intros [A1 A2].
  assert (E : distance a' b' l == distance a b l + Sum (fun p => sq ((a - a') + (b - b') * fst p)) l
    + (2 # 1) * (a - a') * Sum (fun p => snd p - (a + b * fst p)) l + (2 # 1) * (b - b') * Sum (fun p => (snd p - (a + b * fst p)) * fst p) l).
  { clear. induction l as [|p r IH]; [cbn; ring|]. cbn [distance]. rewrite !Sum_cons, IH. unfold sq. ring. }
  rewrite E, A1, A2.
  assert (0 <= Sum (fun p => sq ((a - a') + (b - b') * fst p)) l); [|lra].
  apply Sum_nonneg. intros x _. unfold sq. generalize (a - a' + (b - b') * fst x). intros q.
  destruct (Qlt_le_dec q 0) as [L|L]; [|apply Qmult_le_0_compat; assumption].
  assert (0 <= (- q) * (- q)) by (apply Qmult_le_0_compat; lra). lra.
Qed.
End Regression.

(** ** The largest *)
Lemma qmax_spec l m : qmax l = Some m -> largest m l.
Proof.
  destruct l as [|x l]; [discriminate|]. cbn [qmax]. intros E. injection E as <-.
  assert (K : forall l x, largest (fold_left (fun m y => if Qle_bool m y then y else m) l x) (x :: l)).
  { clear. induction l as [|y l IH]; intros x; cbn [fold_left]; [split; [left; reflexivity|constructor; [apply Qle_refl|constructor]]|].
    destruct (Qle_bool x y) eqn:E; destruct (IH (if Qle_bool x y then y else x)) as [I F]; rewrite E in I, F.
    - apply Qle_bool_iff in E. inversion F as [|? ? F1 F2]; subst. split; [destruct I as [<-|I]; right; [left; reflexivity|right; exact I]|].
      constructor; [eapply Qle_trans; eauto|constructor; assumption].
    - assert (E' : y <= x) by (destruct (Qlt_le_dec x y) as [L|L]; [apply Qlt_le_weak, Qle_bool_iff in L; congruence|exact L]).
      inversion F as [|? ? F1 F2]; subst. split; [destruct I as [<-|I]; [left; reflexivity|right; right; exact I]|].
      constructor; [exact F1|constructor; [eapply Qle_trans; eauto|exact F2]]. }
  apply K.
Qed.
Lemma largest_unique m m' l : largest m l -> largest m' l -> m == m'.
Proof. intros [I F] [I' F']. rewrite Forall_forall in F, F'. apply Qle_antisym; auto. Qed.
Lemma qmax_some l : l <> [] -> exists m, qmax l = Some m.
Proof. destruct l; [congruence|]. cbn. eauto. Qed.
Lemma normalize_spec l : l <> [] -> exists m, largest m l /\
  normalize l = Ok (if Qeq_bool m 0 then None else Some (map (fun x => x / m) l)).
Proof. intros H. destruct (qmax_some l H) as [m E]. exists m. split; [apply qmax_spec; exact E|]. unfold normalize. rewrite E. reflexivity. Qed.
Lemma qltb_iff x y : qltb x y = true <-> x < y.
Proof.
  unfold qltb. rewrite negb_true_iff. split; intros H.
  - destruct (Qlt_le_dec x y) as [L|L]; [exact L|]. apply Qle_bool_iff in L. congruence.
  - destruct (Qle_bool y x) eqn:E; [|reflexivity]. apply Qle_bool_iff in E. exfalso. lra.
Qed.

(** ** One round *)
Definition scale (mx my : Q) (l : list (Q * Q)) : list (Q * Q) := map (fun p => (fst p / mx, snd p / my)) l.
Lemma scale_fst mx my l : map fst (scale mx my l) = map (fun x => x / mx) (map fst l).
Proof. unfold scale. rewrite !map_map. reflexivity. Qed.
Lemma scale_snd mx my l : map snd (scale mx my l) = map (fun x => x / my) (map snd l).
Proof. unfold scale. rewrite !map_map. reflexivity. Qed.
Lemma spread_zero l : l <> [] -> spread l == 0 -> forall p, In p l -> fst p == mean (map fst l).
Proof.
  intros _. unfold spread. generalize (mean (map fst l)). intros m. induction l as [|q l IH]; intros E p; [intros []|].
  rewrite Sum_cons in E.
  assert (A : 0 <= sq (fst q - m)). { unfold sq. generalize (fst q - m). intros z. destruct (Qlt_le_dec z 0) as [L|L]; [|apply Qmult_le_0_compat; assumption]. assert (0 <= (- z) * (- z)) by (apply Qmult_le_0_compat; lra). lra. }
  assert (B : 0 <= Sum (fun p => sq (fst p - m)) l).
  { apply Sum_nonneg. intros x _. unfold sq. generalize (fst x - m). intros z. destruct (Qlt_le_dec z 0) as [L|L]; [|apply Qmult_le_0_compat; assumption]. assert (0 <= (- z) * (- z)) by (apply Qmult_le_0_compat; lra). lra. }
  intros [<-|I]; [|apply IH; [lra|exact I]].
  assert (Z : sq (fst q - m) == 0) by lra. unfold sq in Z. apply Qmult_integral in Z as [Z|Z]; lra.
Qed.
Lemma regression_some l : l <> [] -> ~ spread l == 0 -> exists a b, regression (map fst l) (map snd l) = Some (a, b).
Proof.
  intros H D. unfold regression. rewrite combine_map. set (mx := mean (map fst l)). set (my := mean (map snd l)).
  set (den := fold_left (fun n p => n + sq (fst p - mx)) l 0).
  assert (Ed : den == spread l) by (unfold den; etransitivity; [apply (fold_left_Sum (fun p => sq (fst p - mx)))|]; unfold spread, mx; ring).
  destruct (Qeq_bool den 0) eqn:Z; [|eauto]. apply Qeq_bool_eq in Z. exfalso. apply D. rewrite <- Ed. exact Z.
Qed.
Definition big_error (a b : Q) (l : list (Q * Q)) : Q :=
  fold_left (fun m p => let e := Qabs ((a + b * fst p) - snd p) in if Qle_bool m e then e else m) l 0.
Lemma big_error_bound a b l p : In p l -> Qabs ((a + b * fst p) - snd p) <= big_error a b l.
Proof.
  unfold big_error. generalize 0 at 1. 
  assert (M : forall l m, m <= fold_left (fun m p => let e := Qabs ((a + b * fst p) - snd p) in if Qle_bool m e then e else m) l m).
  { clear. induction l as [|q l IH]; intros m; cbn [fold_left]; [apply Qle_refl|]. cbv zeta in *. destruct (Qle_bool m _) eqn:E; [|apply IH].
    apply Qle_bool_iff in E. eapply Qle_trans; [exact E|apply IH]. }
  revert p. induction l as [|q l IH]; intros p m I; [destruct I|]. cbn [fold_left]. destruct I as [<-|I]; [|apply IH; exact I].
  destruct (Qle_bool m (Qabs (a + b * fst q - snd q))) eqn:E; [apply M|].
  eapply Qle_trans; [|apply M]. destruct (Qlt_le_dec m (Qabs (a + b * fst q - snd q))) as [L|L]; [|exact L].
  apply Qlt_le_weak, Qle_bool_iff in L. congruence.
Qed.
Lemma big_error_zero a b l : (forall p, In p l -> a + b * fst p == snd p) -> big_error a b l == 0.
Proof.
  unfold big_error. intros H. assert (K : forall l m, m == 0 -> (forall p, In p l -> a + b * fst p == snd p) ->
    fold_left (fun m p => let e := Qabs ((a + b * fst p) - snd p) in if Qle_bool m e then e else m) l m == 0).
  { clear. induction l as [|q l IH]; intros m E H; cbn [fold_left]; [exact E|]. apply IH; [|intros p I; apply H; right; exact I].
    cbv zeta. destruct (Qle_bool _ _); [|exact E]. rewrite (H q) by (left; reflexivity). setoid_replace (snd q - snd q) with 0 by ring. reflexivity. }
  apply K; [reflexivity|exact H].
Qed.
Lemma looks_linear_iff l a b : l <> [] -> looks_linear (map fst l) (map snd l) a b = true <->
  distance a b l / qlen l < sq (1 # 20) /\ big_error a b l < 1 # 10 /\ - (1 # 10) < a.
Proof.
  intros _. unfold looks_linear. rewrite combine_map, qlen_map. fold (big_error a b l). rewrite !andb_true_iff, !qltb_iff.
  assert (E : fold_left (fun s p => s + sq (snd p - (a + b * fst p))) l 0 == distance a b l).
  { etransitivity; [apply (fold_left_Sum (fun p => sq (snd p - (a + b * fst p))))|]. rewrite Qplus_0_l. clear.
    induction l as [|p l IH]; [reflexivity|]. rewrite Sum_cons, IH. reflexivity. }
  rewrite E. tauto.
Qed.
Lemma finish_spec l mx my : l <> [] -> largest mx (map fst l) -> largest my (map snd l) -> ~ mx == 0 -> ~ my == 0 ->
  exists mx' my', mx' == mx /\ my' == my /\ let l' := scale mx' my' l in
  finish l = Ok (match regression (map fst l') (map snd l') with Some (a, b) => looks_linear (map fst l') (map snd l') a b | None => false end).
Proof.
  intros H Lx Ly Nx Ny. assert (Hx : map fst l <> []) by (destruct l; [congruence|discriminate]). assert (Hy : map snd l <> []) by (destruct l; [congruence|discriminate]).
  destruct (normalize_spec _ Hx) as (mx' & Lx' & Ex). destruct (normalize_spec _ Hy) as (my' & Ly' & Ey).
  pose proof (largest_unique _ _ _ Lx' Lx) as Qx. pose proof (largest_unique _ _ _ Ly' Ly) as Qy.
  exists mx', my'. split; [exact Qx|]. split; [exact Qy|]. cbv zeta. rewrite scale_fst, scale_snd. unfold finish. rewrite Ex, Ey. cbn [bind].
  destruct (Qeq_bool mx' 0) eqn:Zx; [apply Qeq_bool_eq in Zx; exfalso; apply Nx; rewrite <- Qx; exact Zx|].
  destruct (Qeq_bool my' 0) eqn:Zy; [apply Qeq_bool_eq in Zy; exfalso; apply Ny; rewrite <- Qy; exact Zy|]. reflexivity.
Qed.
Lemma scale_spread mx my l : ~ mx == 0 -> two_sizes l -> ~ spread (scale mx my l) == 0.
Proof.
  intros N (p & q & Ip & Iq & D) Z. assert (H : scale mx my l <> []) by (destruct l; [destruct Ip|discriminate]).
  pose proof (spread_zero _ H Z (fst p / mx, snd p / my) (in_map (fun p => (fst p / mx, snd p / my)) _ _ Ip)) as A.
  pose proof (spread_zero _ H Z (fst q / mx, snd q / my) (in_map (fun p => (fst p / mx, snd p / my)) _ _ Iq)) as B. cbn [fst] in A, B.
  apply D. assert (E : fst p / mx == fst q / mx) by (rewrite A, B; reflexivity).
  transitivity (fst p / mx * mx); [field; exact N|]. rewrite E. field. exact N.
Qed.
(** a line through measurements that is normal decides the constant term *)
Lemma finish_normal l mx my : l <> [] -> largest mx (map fst l) -> largest my (map snd l) -> ~ mx == 0 -> ~ my == 0 -> two_sizes l ->
  exists mx' my' a b, mx' == mx /\ my' == my /\ normal (scale mx' my' l) a b /\
  (forall a' b', normal (scale mx' my' l) a' b' -> a == a' /\ b == b') /\
  (finish l = Ok true <-> distance a b (scale mx' my' l) / qlen l < sq (1 # 20) /\ big_error a b (scale mx' my' l) < 1 # 10 /\ - (1 # 10) < a) /\
  (exists v, finish l = Ok v).
Proof.
  intros H Lx Ly Nx Ny T. destruct (finish_spec l mx my H Lx Ly Nx Ny) as (mx' & my' & Qx & Qy & E). cbv zeta in E.
  assert (H' : scale mx' my' l <> []) by (destruct l; [congruence|discriminate]).
  assert (D : ~ spread (scale mx' my' l) == 0) by (apply scale_spread; [rewrite Qx; exact Nx|exact T]).
  destruct (regression_some _ H' D) as (a & b & R). exists mx', my', a, b. split; [exact Qx|]. split; [exact Qy|].
  destruct (regression_normal _ _ _ H' R) as [Nn _]. split; [exact Nn|]. split; [intros a' b' N'; exact (normal_unique _ _ _ _ _ H' D Nn N')|].
  rewrite E, R. split; [|eauto]. assert (QL : qlen (scale mx' my' l) = qlen l) by apply qlen_map.
  rewrite <- QL, <- (looks_linear_iff _ a b H'). split; intros X; congruence.
Qed.
