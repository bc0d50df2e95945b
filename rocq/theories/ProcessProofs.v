(** Replaying the events of a denoted forest calls the sink in tree order. *)
From Verif Require Import Base BaseProofs Kinds KindsProofs Parser Grammar Sink TreeSpec ParserLogic.
Local Open Scope N_scope.

(** The calls that describe a tree. *)
Fixpoint flat1 (t : tree) : list sink_call :=
  match t with
  | TNode k cs => SStart k :: flat_map flat1 cs ++ [SFinish]
  | TTok k => [SToken k 1]
  | TErr msg => [SError msg]
  end.
Definition flat (f : forest) : list sink_call := flat_map flat1 f.
Lemma flat_app a b : flat (a ++ b) = flat a ++ flat b.
Proof. apply flat_map_app. Qed.

(** ** Events before the current one do not matter *)
Lemma follow_shift p1 p2 : length p1 = length p2 -> forall fuel i fp evs acc,
  match follow fuel (length p1 + i) fp (p1 ++ evs) acc with
  | Ok (ks, e) => exists evs', e = p1 ++ evs' /\ length evs' = length evs /\
      follow fuel (length p2 + i) fp (p2 ++ evs) acc = Ok (ks, p2 ++ evs')
  | Panic w => follow fuel (length p2 + i) fp (p2 ++ evs) acc = Panic w
  | Fuel => follow fuel (length p2 + i) fp (p2 ++ evs) acc = Fuel
  end.
Proof.
  intros L fuel. induction fuel as [|fuel IH]; intros i fp evs acc; destruct fp as [fwd|]; cbn [follow]; eauto.
  rewrite <- !Nat.add_assoc, !nth_error_app_r.
  destruct (nth_error evs (i + fwd)) as [e|] eqn:E; cbn [index bind]; [|reflexivity].
  rewrite !set_nth_app_r.
  destruct e as [k fp'| | |]; try reflexivity.
  specialize (IH (i + fwd)%nat fp' (set_nth evs (i + fwd) tombstone) (if kind_eqb k TOMBSTONE then acc else k :: acc)).
  destruct (follow fuel (length p1 + (i + fwd)) fp' (p1 ++ set_nth evs (i + fwd) tombstone)
    (if kind_eqb k TOMBSTONE then acc else k :: acc)) as [[ks e]|w|]; auto.
  rewrite set_nth_length in IH. exact IH.
Qed.

Lemma process_shift n : forall p1 p2 evs, length p1 = length p2 ->
  process_from n (length p1) (p1 ++ evs) = process_from n (length p2) (p2 ++ evs).
Proof.
  induction n as [|n IH]; intros p1 p2 evs L; [reflexivity|]. cbn [process_from].
  pose proof (nth_error_app_r p1 evs 0) as N1. pose proof (nth_error_app_r p2 evs 0) as N2.
  rewrite Nat.add_0_r in N1, N2. rewrite N1, N2.
  destruct evs as [|e evs]; [reflexivity|]. cbn [nth_error index bind].
  pose proof (set_nth_app_r p1 (e :: evs) 0 tombstone) as S1. pose proof (set_nth_app_r p2 (e :: evs) 0 tombstone) as S2.
  rewrite Nat.add_0_r in S1, S2. rewrite S1, S2. cbn [set_nth].
  assert (IH' : forall q1 q2 evs', length q1 = length q2 ->
    process_from n (S (length q1)) (q1 ++ tombstone :: evs') = process_from n (S (length q2)) (q2 ++ tombstone :: evs')).
  { intros q1 q2 evs' Lq. specialize (IH (q1 ++ [tombstone]) (q2 ++ [tombstone]) evs').
    rewrite !app_length, <- !app_assoc in IH. cbn [length app] in IH. rewrite !Nat.add_1_r in IH. apply IH. lia. }
  destruct e as [k fp| | |]; try (rewrite (IH' p1 p2) by exact L; reflexivity).
  destruct (kind_eqb k TOMBSTONE); [apply IH'; exact L|].
  assert (Ll : length (p1 ++ tombstone :: evs) = length (p2 ++ tombstone :: evs)) by (rewrite !app_length; lia).
  rewrite Ll.
  pose proof (follow_shift p1 p2 L (length (p2 ++ tombstone :: evs)) 0 fp (tombstone :: evs) [k]) as F.
  rewrite !Nat.add_0_r in F.
  destruct (follow _ (length p1) fp (p1 ++ tombstone :: evs) [k]) as [[ks e]|w|]; cbn [bind].
  - destruct F as (evs' & -> & Le & ->). cbn [bind].
    destruct evs' as [|x evs']; [discriminate|].
    specialize (IH (p1 ++ [x]) (p2 ++ [x]) evs'). rewrite !app_length, <- !app_assoc in IH.
    cbn [length app] in IH. rewrite !Nat.add_1_r in IH. rewrite IH by lia. reflexivity.
  - rewrite F. reflexivity.
  - rewrite F. reflexivity.
Qed.

(** [yields seg calls]: processing the events [seg] makes the calls [calls],
    whatever surrounds them. *)
Definition yields (seg : list event) (cs : list sink_call) : Prop :=
  forall pre post n,
    process_from (length seg + n) (length pre) (pre ++ seg ++ post)
    = let! r := process_from n (length (pre ++ seg)) ((pre ++ seg) ++ post) in Ok (cs ++ r).

Lemma yields_nil : yields [] [].
Proof.
  intros pre post n. cbn [length app Nat.add]. rewrite app_nil_r.
  destruct (process_from n (length pre) (pre ++ post)); reflexivity.
Qed.
Lemma yields_app a b ca cb : yields a ca -> yields b cb -> yields (a ++ b) (ca ++ cb).
Proof.
  intros Ha Hb pre post n. rewrite app_length, <- Nat.add_assoc, <- app_assoc, Ha, Hb.
  rewrite (app_assoc pre a b).
  destruct (process_from n (length ((pre ++ a) ++ b)) (((pre ++ a) ++ b) ++ post)); cbn [bind]; try reflexivity.
  rewrite app_assoc. reflexivity.
Qed.
Lemma yields_one e c : (forall n i evs, nth_error evs i = Some e ->
    process_from (S n) i evs = let! r := process_from n (S i) (set_nth evs i tombstone) in Ok (c ++ r)) ->
  yields [e] c.
Proof.
  intros H pre post n. cbn [length Nat.add app].
  rewrite H; [|rewrite <- (Nat.add_0_r (length pre)), nth_error_app_r; reflexivity].
  rewrite <- (Nat.add_0_r (length pre)) at 2. rewrite set_nth_app_r. cbn [set_nth].
  rewrite app_length. cbn [length]. rewrite Nat.add_1_r.
  pose proof (process_shift n (pre ++ [tombstone]) (pre ++ [e]) post) as E.
  rewrite !app_length, <- !app_assoc in E. cbn [length app] in E. rewrite !Nat.add_1_r in E.
  rewrite E by reflexivity. rewrite <- app_assoc. reflexivity.
Qed.
Lemma yields_tok k : yields [EToken k 1] [SToken k 1].
Proof. apply yields_one. intros n i evs E. cbn [process_from]. rewrite E. reflexivity. Qed.
Lemma yields_err m : yields [EError m] [SError m].
Proof. apply yields_one. intros n i evs E. cbn [process_from]. rewrite E. reflexivity. Qed.
Lemma yields_finish : yields [EFinish] [SFinish].
Proof. apply yields_one. intros n i evs E. cbn [process_from]. rewrite E. reflexivity. Qed.
Lemma yields_tomb : yields [tombstone] [].
Proof.
  apply yields_one. intros n i evs E. cbn [process_from]. rewrite E. unfold tombstone at 1. cbn [index bind].
  change (kind_eqb TOMBSTONE TOMBSTONE) with true. cbn [app].
  destruct (process_from n (S i) (set_nth evs i tombstone)); reflexivity.
Qed.

(** What following the forward parents of a chain does. *)
Definition chained (i : option tree) (seg : list event) (t : tree) : Prop :=
  exists k fp rest kinds seg' tail,
    seg = EStart k fp :: rest /\ k <> TOMBSTONE /\
    flat1 t = map SStart kinds ++ flat (opt_tree i) ++ tail /\
    (forall pre post fuel acc, (length seg <= fuel)%nat ->
       follow fuel (length pre) fp (pre ++ tombstone :: rest ++ post) (k :: acc)
       = Ok (kinds ++ acc, pre ++ (tombstone :: seg') ++ post)) /\
    length seg' = length rest /\ yields (tombstone :: seg') tail.

Lemma at_head {A} (pre : list A) x rest : nth_error (pre ++ x :: rest) (length pre) = Some x.
Proof. pose proof (nth_error_app_r pre (x :: rest) 0) as E. rewrite Nat.add_0_r in E. exact E. Qed.
Lemma set_head {A} (pre : list A) x y rest : set_nth (pre ++ x :: rest) (length pre) y = pre ++ y :: rest.
Proof. pose proof (set_nth_app_r pre (x :: rest) 0 y) as E. rewrite Nat.add_0_r in E. exact E. Qed.

Lemma chained_yields n t : chained None n t -> yields n (flat1 t).
Proof.
  intros (k & fp & rest & kinds & seg' & tail & -> & Hk & Ef & Hf & Hl & Hy) pre post m.
  specialize (Hy pre post m). cbn [length Nat.add app] in *. cbn [process_from] in *.
  rewrite at_head in *. cbn [index bind] in *. rewrite !set_head in *.
  unfold tombstone at 1 in Hy. cbn iota in Hy. change (kind_eqb TOMBSTONE TOMBSTONE) with true in Hy. cbn iota in Hy.
  apply kind_eqb_neq in Hk. rewrite Hk.
  rewrite Hf; [|rewrite app_length; cbn [length]; rewrite app_length; lia].
  cbn [bind]. cbn [app]. rewrite Hl in Hy. rewrite Hy.
  rewrite (process_shift m (pre ++ tombstone :: seg') (pre ++ EStart k fp :: rest))
    by (rewrite !app_length; cbn [length]; lia).
  match goal with |- context[process_from m ?a ?b] => destruct (process_from m a b) as [r|w|] end;
    cbn [bind]; try reflexivity.
  rewrite Ef, app_nil_r. cbn [opt_tree flat flat_map app]. rewrite <- app_assoc. reflexivity.
Qed.

Lemma chained_last i k s f : k <> TOMBSTONE -> yields s (flat f) ->
  chained i (EStart k None :: s ++ [EFinish]) (TNode k (opt_tree i ++ f)).
Proof.
  intros Hk Hs. exists k, None, (s ++ [EFinish]), [k], (s ++ [EFinish]), (flat f ++ [SFinish]).
  split; [reflexivity|]. split; [exact Hk|]. split.
  - cbn [flat1 map app]. change (flat_map flat1 (opt_tree i ++ f)) with (flat (opt_tree i ++ f)).
    rewrite flat_app, <- app_assoc. reflexivity.
  - split; [|split; [reflexivity|]].
    + intros pre post [|fuel] acc Hf; reflexivity.
    + apply (yields_app [tombstone] (s ++ [EFinish]) []); [apply yields_tomb|].
      apply yields_app; [exact Hs|apply yields_finish].
Qed.

Lemma chained_more i k s f seg t : k <> TOMBSTONE -> yields s (flat f) ->
  chained (Some (TNode k (opt_tree i ++ f))) seg t ->
  chained i (EStart k (Some (length s + 2)%nat) :: s ++ EFinish :: seg) t.
Proof.
  intros Hk Hs (k2 & fp2 & rest2 & kinds & seg' & tail & -> & Hk2 & Ef & Hf & Hl & Hy).
  exists k, (Some (length s + 2)%nat), (s ++ EFinish :: EStart k2 fp2 :: rest2), (kinds ++ [k]),
    (s ++ EFinish :: tombstone :: seg'), (flat f ++ SFinish :: tail).
  split; [reflexivity|]. split; [exact Hk|]. split.
  - rewrite Ef, map_app, <- app_assoc. f_equal. unfold flat at 1. cbn [opt_tree flat_map flat1].
    rewrite app_nil_r.
    change (flat_map flat1 (opt_tree i ++ f)) with (flat (opt_tree i ++ f)).
    rewrite flat_app. cbn [map app]. rewrite <- !app_assoc. reflexivity.
  - split; [|split].
    + intros pre post fuel acc Hlen. cbn [length] in Hlen. rewrite app_length in Hlen. cbn [length] in Hlen.
      destruct fuel as [|fuel]; [lia|]. cbn [follow].
      set (P := pre ++ tombstone :: s ++ [EFinish]).
      assert (EP : forall x, pre ++ tombstone :: (s ++ EFinish :: x) ++ post = P ++ x ++ post).
      { intros x. unfold P. rewrite <- !app_assoc. cbn [app]. rewrite <- !app_assoc. reflexivity. }
      assert (LP : (length pre + (length s + 2))%nat = length P).
      { unfold P. rewrite app_length. cbn [length]. rewrite app_length. cbn [length]. lia. }
      rewrite EP, LP. cbn [app]. rewrite at_head, set_head. cbn [index bind].
      apply kind_eqb_neq in Hk2. rewrite Hk2. rewrite Hf by (cbn [length]; lia).
      f_equal. f_equal; [rewrite <- app_assoc; reflexivity|].
      rewrite <- EP. reflexivity.
    + rewrite !app_length. cbn [length]. lia.
    + apply (yields_app [tombstone] _ []); [apply yields_tomb|].
      apply yields_app; [exact Hs|]. apply (yields_app [EFinish] _ [SFinish]); [apply yields_finish|exact Hy].
Qed.

Lemma den_yields seg f : den seg f -> yields seg (flat f).
Proof.
  revert seg f. apply (den_mut (fun seg f => yields seg (flat f)) (fun i seg t off => chained i seg t)).
  - exact yields_nil.
  - intros k s f _ IH. apply (yields_app [EToken k 1] s [SToken k 1] (flat f)); [apply yields_tok|exact IH].
  - intros m s f _ IH. apply (yields_app [EError m] s [SError m] (flat f)); [apply yields_err|exact IH].
  - intros s f _ IH. apply (yields_app [tombstone] s [] (flat f)); [apply yields_tomb|exact IH].
  - intros n t off s f _ C _ IH. apply yields_app; [apply chained_yields; exact C|exact IH].
  - intros i k s f Hk _ IH. apply chained_last; auto.
  - intros i k s f seg t off Hk _ IH _ C. apply (chained_more i k s f seg t); auto.
Qed.

Theorem process_den evs f : den evs f -> process evs = Ok (flat f).
Proof.
  intros D. pose proof (den_yields evs f D [] [] 0%nat) as H. unfold process.
  rewrite Nat.add_0_r in H. cbn [app length] in H. rewrite app_nil_r in H. rewrite H. cbn. rewrite app_nil_r. reflexivity.
Qed.
