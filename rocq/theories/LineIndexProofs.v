From Verif Require Import Base BaseProofs LineIndex TextSpec.
Local Open Scope N_scope.

(** ** Structure of the built index *)

Fixpoint starts_from (p : N) (t : text) : list N :=
  match t with
  | [] => []
  | c :: r => if c =? cLF then (p + utf8_len c) :: starts_from (p + utf8_len c) r
              else starts_from (p + utf8_len c) r
  end.

Fixpoint wide_from (col : N) (l : text) : list utf16char :=
  match l with
  | [] => []
  | c :: r => if c <? 128 then wide_from (col + utf8_len c) r
              else {| uc_start := col; uc_end := col + utf8_len c |} :: wide_from (col + utf8_len c) r
  end.

Lemma st_newlines_fold t s :
  st_newlines (fold_left li_step t s) = st_newlines s ++ starts_from (st_row s) t.
Proof.
  revert s; induction t as [|c t IH]; intros s; cbn [fold_left starts_from].
  - rewrite app_nil_r; reflexivity.
  - rewrite IH. unfold li_step. destruct (c =? cLF); cbn; [|reflexivity].
    rewrite <- app_assoc; reflexivity.
Qed.

Lemma newlines_build t : newlines (li_build t) = 0 :: starts_from 0 t.
Proof. unfold li_build; cbn. rewrite st_newlines_fold; reflexivity. Qed.

Definition save_wide (m : list (N * list utf16char)) (l : N) (w : list utf16char) :=
  match w with [] => m | _ => ainsert N.eqb l w m end.

Definition nth_line (t : text) (n : nat) : text := nth n (lines_of t) [].

Lemma lines_of_nonempty t : lines_of t <> [].
Proof. destruct t as [|c t]; cbn; [discriminate|]. destruct (c =? cLF); [discriminate|].
  destruct (lines_of t); discriminate. Qed.

(* all keys of the table are below the current line *)
Definition keys_below (m : list (N * list utf16char)) (l : N) :=
  forall k, l <= k -> alookup N.eqb k m = None.

Lemma li_save_lookup s k :
  keys_below (st_lines s) (st_line s) ->
  alookup N.eqb k (li_save s) =
    if k =? st_line s then match st_chars s with [] => None | w => Some w end
    else alookup N.eqb k (st_lines s).
Proof.
  intros Hk. unfold li_save. destruct (st_chars s) as [|w ws] eqn:E.
  - destruct (k =? st_line s) eqn:E1; auto. apply Hk; lia.
  - destruct (k =? st_line s) eqn:E1.
    + replace k with (st_line s) by lia. apply alookup_insert. apply Neqb_spec.
    + apply alookup_insert_ne; [apply Neqb_spec|lia].
Qed.

Lemma wide_lookup t s :
  keys_below (st_lines s) (st_line s) ->
  forall k, alookup N.eqb k (li_save (fold_left li_step t s)) =
    if k <? st_line s then alookup N.eqb k (st_lines s)
    else let w := (if k =? st_line s then st_chars s else []) ++
               wide_from (if k =? st_line s then st_col s else 0)
                         (nth_line t (N.to_nat (k - st_line s)))
         in match w with [] => None | _ => Some w end.
Proof.
  revert s; induction t as [|c t IH]; intros s Hk k; cbn [fold_left].
  - rewrite li_save_lookup by auto. unfold nth_line; cbn [lines_of].
    destruct (k <? st_line s) eqn:E1, (k =? st_line s) eqn:E2; try lia; auto.
    + replace (k - st_line s) with 0 by lia. cbn. rewrite app_nil_r. destruct (st_chars s); reflexivity.
    + rewrite Hk by lia. destruct (N.to_nat (k - st_line s)) as [|[|n]] eqn:E3; reflexivity.
  - destruct (c =? cLF) eqn:Ec.
    + rewrite IH.
      * unfold li_step. rewrite Ec. cbn [st_line st_lines st_chars st_col].
        unfold nth_line; cbn [lines_of]. rewrite Ec.
        rewrite li_save_lookup by auto.
        destruct (k <? st_line s) eqn:E1.
        -- destruct (k <? st_line s + 1) eqn:E3; [|lia].
           destruct (k =? st_line s) eqn:E2; [lia|reflexivity].
        -- destruct (k =? st_line s) eqn:E2.
           ++ destruct (k <? st_line s + 1) eqn:E3; [|lia].
              replace (k - st_line s) with 0 by lia. cbn. rewrite app_nil_r. destruct (st_chars s); reflexivity.
           ++ destruct (k <? st_line s + 1) eqn:E3; [lia|].
              replace (N.to_nat (k - st_line s)) with (S (N.to_nat (k - (st_line s + 1)))) by lia.
              cbn [nth app].
              destruct (k =? st_line s + 1); reflexivity.
      * unfold li_step; rewrite Ec; cbn [st_line st_lines]. intros k' Hk'.
        rewrite li_save_lookup by auto.
        destruct (k' =? st_line s) eqn:E2; [lia|]. apply Hk; lia.
    + rewrite IH.
      * unfold li_step. rewrite Ec. cbn [st_line st_lines st_chars st_col].
        destruct (k <? st_line s) eqn:E1; auto.
        unfold nth_line. cbn [lines_of]. rewrite Ec.
        pose proof (lines_of_nonempty t) as Hne.
        destruct (lines_of t) as [|l ls] eqn:El; [contradiction|].
        destruct (k =? st_line s) eqn:E2.
        -- replace (k - st_line s) with 0 by lia. cbn [N.to_nat nth wide_from].
           destruct (c <? 128) eqn:Ea; [reflexivity|].
           rewrite <- app_assoc. reflexivity.
        -- destruct (N.to_nat (k - st_line s)) as [|n] eqn:E4; [lia|]. cbn [nth]. reflexivity.
      * unfold li_step; rewrite Ec; cbn [st_line st_lines]. exact Hk.
Qed.

Lemma utf16_lines_build t k :
  alookup N.eqb k (utf16_lines (li_build t)) =
    match wide_from 0 (nth_line t (N.to_nat k)) with [] => None | w => Some w end.
Proof.
  unfold li_build; cbn [utf16_lines]. rewrite wide_lookup.
  - cbn [li_init st_line st_chars st_col st_lines]. 
    destruct (k <? 0) eqn:E; [lia|]. replace (k - 0) with k by lia.
    destruct (k =? 0); cbn [app]; destruct (wide_from 0 _); reflexivity.
  - intros j _; reflexivity.
Qed.

(** The two conversion loops read an absent entry like an empty one. *)
Lemma u8_16_build t l col :
  utf8_to_utf16_col (li_build t) l col = utf8_to_utf16_loop (wide_from 0 (nth_line t (N.to_nat l))) col col.
Proof.
  unfold utf8_to_utf16_col. rewrite utf16_lines_build.
  destruct (wide_from 0 _); reflexivity.
Qed.
Lemma u16_8_build t l col :
  utf16_to_utf8_col (li_build t) l col = utf16_to_utf8_loop (wide_from 0 (nth_line t (N.to_nat l))) col.
Proof.
  unfold utf16_to_utf8_col. rewrite utf16_lines_build.
  destruct (wide_from 0 _); reflexivity.
Qed.

(** ** Sortedness of line starts *)
Lemma starts_from_gt p t x : In x (starts_from p t) -> p < x.
Proof.
  revert p; induction t as [|c t IH]; intros p; cbn [starts_from]; [intros []|].
  pose proof (utf8_len_pos c).
  destruct (c =? cLF); cbn [In]; intros H1.
  - destruct H1 as [<-|H1]; [lia|]. apply IH in H1; lia.
  - apply IH in H1; lia.
Qed.
Lemma starts_from_le p t x : In x (starts_from p t) -> x <= p + tlen t.
Proof.
  revert p; induction t as [|c t IH]; intros p; cbn [starts_from tlen]; [intros []|].
  destruct (c =? cLF); cbn [In]; intros H1.
  - destruct H1 as [<-|H1]; [lia|]. apply IH in H1; lia.
  - apply IH in H1; lia.
Qed.

Inductive sorted_lt : list N -> Prop :=
| sl_nil : sorted_lt []
| sl_cons x l : (forall y, In y l -> x < y) -> sorted_lt l -> sorted_lt (x :: l).

Lemma starts_from_sorted p t : sorted_lt (starts_from p t).
Proof.
  revert p; induction t as [|c t IH]; intros p; cbn [starts_from]; [constructor|].
  destruct (c =? cLF); auto. constructor; auto. intros y Hy. apply starts_from_gt in Hy; lia.
Qed.
Lemma newlines_sorted t : sorted_lt (newlines (li_build t)).
Proof.
  rewrite newlines_build. constructor; [|apply starts_from_sorted].
  intros y Hy. apply starts_from_gt in Hy; lia.
Qed.

Lemma starts_from_app p a b :
  starts_from p (a ++ b) = starts_from p a ++ starts_from (p + tlen a) b.
Proof.
  revert p; induction a as [|c a IH]; intros p; cbn [starts_from app tlen].
  - f_equal; lia.
  - rewrite !IH. replace (p + (utf8_len c + tlen a)) with (p + utf8_len c + tlen a) by lia.
    destruct (c =? cLF); reflexivity.
Qed.
Lemma starts_from_length p t : N.of_nat (length (starts_from p t)) = count_lf t.
Proof.
  revert p; induction t as [|c t IH]; intros p; cbn [starts_from count_lf length]; [reflexivity|].
  destruct (c =? cLF); cbn [length]; rewrite <- (IH (p + utf8_len c)); lia.
Qed.

(** last line of a prefix *)
Lemma count_lf_app a b : count_lf (a ++ b) = count_lf a + count_lf b.
Proof. induction a as [|c a IH]; cbn [count_lf app]; [lia|]. rewrite IH; lia. Qed.
Lemma last_line_no_lf t : count_lf (last_line t) = 0.
Proof.
  induction t as [|c t IH]; [reflexivity|]. cbn [last_line].
  destruct (count_lf (c :: t) =? 0) eqn:E; [lia|exact IH].
Qed.
Lemma last_line_id t : count_lf t = 0 -> last_line t = t.
Proof. destruct t as [|c t]; [reflexivity|]. intros H. cbn [last_line].
  rewrite H. reflexivity. Qed.
Lemma last_line_split t :
  count_lf t <> 0 -> exists a, t = a ++ cLF :: last_line t.
Proof.
  induction t as [|c t IH]; cbn [count_lf]; intros H; [lia|].
  cbn [last_line count_lf].
  destruct (c =? cLF) eqn:Ec; destruct (_ + count_lf t =? 0) eqn:E; try lia.
  - destruct (count_lf t =? 0) eqn:E2.
    + exists []. cbn. rewrite last_line_id by lia. f_equal. unfold cLF in *; lia.
    + destruct IH as [a Ha]; [lia|]. exists (c :: a). cbn. rewrite <- Ha; reflexivity.
  - destruct IH as [a Ha]; [lia|]. exists (c :: a). cbn. rewrite <- Ha; reflexivity.
Qed.

Definition line_start (pre : text) : N := tlen pre - tlen (last_line pre).

Lemma line_start_eq pre : line_start pre + tlen (last_line pre) = tlen pre.
Proof.
  unfold line_start.
  assert (tlen (last_line pre) <= tlen pre); [|lia].
  destruct (N.eq_dec (count_lf pre) 0) as [E|E].
  - rewrite last_line_id by auto; lia.
  - destruct (last_line_split pre E) as [a Ha]. rewrite Ha at 2. rewrite tlen_app; cbn [tlen]; lia.
Qed.

Lemma starts_no_lf p t : count_lf t = 0 -> starts_from p t = [].
Proof.
  revert p; induction t as [|c t IH]; intros p; cbn [count_lf starts_from]; auto.
  destruct (c =? cLF); [lia|]. auto.
Qed.

(** the last start among [0 :: starts_from 0 pre] is [line_start pre] *)
Lemma nth_line_start pre :
  nth_error (0 :: starts_from 0 pre) (N.to_nat (count_lf pre)) = Some (line_start pre).
Proof.
  destruct (N.eq_dec (count_lf pre) 0) as [E|E].
  - rewrite E, starts_no_lf by auto. cbn. unfold line_start.
    rewrite last_line_id by auto. f_equal; lia.
  - destruct (last_line_split pre E) as [a Ha].
    set (l := last_line pre) in *.
    assert (Hl : count_lf l = 0) by apply last_line_no_lf.
    rewrite Ha. rewrite count_lf_app. cbn [count_lf].
    replace (cLF =? cLF) with true by reflexivity.
    rewrite Hl.
    replace (N.to_nat (count_lf a + (1 + 0))) with (S (N.to_nat (count_lf a))) by lia.
    cbn [nth_error]. rewrite starts_from_app. cbn [starts_from].
    replace (cLF =? cLF) with true by reflexivity.
    rewrite (starts_no_lf _ l) by auto.
    rewrite nth_error_app2 by (rewrite <- (starts_from_length 0 a); lia).
    rewrite <- (starts_from_length 0 a).
    replace (N.to_nat (N.of_nat _) - _)%nat with O by lia. cbn [nth_error]. f_equal.
    unfold line_start. rewrite <- Ha. fold l. rewrite Ha, tlen_app. cbn [tlen]. lia.
Qed.

Lemma partition_point_app {A} (p : A -> bool) a b :
  forallb p a = true ->
  partition_point p (a ++ b) = (length a + partition_point p b)%nat.
Proof.
  induction a as [|x a IH]; cbn [forallb app partition_point length]; auto.
  intros H; apply andb_prop in H as [-> H2]. rewrite IH; auto.
Qed.
Lemma partition_point_none {A} (p : A -> bool) b :
  (forall x, In x b -> p x = false) -> partition_point p b = O.
Proof. destruct b as [|x b]; cbn; auto. intros H; rewrite H; auto. Qed.

(** ** C02 *)
(** [o] points into (or past) the text and [pre] is the longest prefix of
    whole characters before it. *)
Definition prefix_before (t pre : text) (o : N) : Prop :=
  exists post, t = pre ++ post /\ tlen pre <= o /\
    (post = [] \/ exists c r, post = c :: r /\ o < tlen pre + utf8_len c).

Lemma prefix_before_exists t o : exists pre, prefix_before t pre o.
Proof.
  revert o; induction t as [|c t IH]; intros o.
  - exists []. exists []. cbn. split; [auto|]. split; [lia|auto].
  - destruct (o <? utf8_len c) eqn:E.
    + exists []. exists (c :: t). cbn. repeat split; [lia|]. right. exists c, t. split; [auto|lia].
    + destruct (IH (o - utf8_len c)) as [pre [post [-> [Hl Hp]]]].
      exists (c :: pre), post. cbn [tlen app]. repeat split; [lia|].
      destruct Hp as [->|[d [r [-> Hd]]]]; auto. right. exists d, r. split; [auto|lia].
Qed.

Lemma starts_after p t o x :
  In x (starts_from p t) ->
  (t = [] \/ exists c r, t = c :: r /\ o < p + utf8_len c) -> o < x.
Proof.
  intros Hin [->|[c [r [-> Ho]]]]; [destruct Hin|].
  cbn [starts_from] in Hin. destruct (c =? cLF).
  - destruct Hin as [<-|Hin]; [lia|]. apply starts_from_gt in Hin; lia.
  - apply starts_from_gt in Hin; lia.
Qed.

Lemma line_col_prefix t pre o :
  prefix_before t pre o ->
  li_line_col (li_build t) o =
    Ok {| lc_line := count_lf pre; lc_col := o - tlen pre + tlen (last_line pre) |}.
Proof.
  intros [post [-> [Hl Hp]]]. unfold li_line_col. rewrite newlines_build, starts_from_app.
  change (0 :: starts_from 0 pre ++ starts_from (0 + tlen pre) post)
    with ((0 :: starts_from 0 pre) ++ starts_from (0 + tlen pre) post).
  rewrite partition_point_app.
  2:{ apply forallb_forall. intros x [<-|Hx]; [lia|]. apply starts_from_le in Hx. lia. }
  rewrite (partition_point_none _ (starts_from (0 + tlen pre) post)).
  2:{ intros x Hx. apply starts_after with (o := o) in Hx; [lia|].
      destruct Hp as [->|[c [r [-> Hc]]]]; auto. right; exists c, r; split; [auto|lia]. }
  cbn [length Nat.add]. rewrite Nat.add_0_r.
  replace (length (starts_from 0 pre)) with (N.to_nat (count_lf pre))
    by (rewrite <- (starts_from_length 0 pre); lia).
  rewrite nth_error_app1 by (cbn [length]; rewrite <- (starts_from_length 0 pre); lia).
  rewrite nth_line_start. cbn [index bind].
  pose proof (line_start_eq pre). unfold u32_sub.
  destruct (line_start pre <=? o) eqn:E; [|lia]. cbn [bind]. f_equal. f_equal; lia.
Qed.

(** ** C01 *)
Lemma line_col_offset t o :
  tlen t < u32_bound -> o < u32_bound ->
  exists p, li_line_col (li_build t) o = Ok p /\ li_offset (li_build t) p = Ok o.
Proof.
  intros Ht Ho. destruct (prefix_before_exists t o) as [pre Hpre].
  eexists; split; [apply line_col_prefix; eauto|].
  destruct Hpre as [post [-> [Hl Hp]]].
  unfold li_offset; cbn [lc_line lc_col]. rewrite newlines_build, starts_from_app.
  change (0 :: starts_from 0 pre ++ starts_from (0 + tlen pre) post)
    with ((0 :: starts_from 0 pre) ++ starts_from (0 + tlen pre) post).
  rewrite nth_error_app1 by (cbn [length]; rewrite <- (starts_from_length 0 pre); lia).
  rewrite nth_line_start. cbn [index bind].
  pose proof (line_start_eq pre). unfold u32_add.
  destruct (_ <? _) eqn:E; [|lia]. f_equal; lia.
Qed.

(** ** C03 *)
Lemma nth_line_prefix pre post :
  nth_line (pre ++ post) (N.to_nat (count_lf pre)) = last_line pre ++ nth_line post 0.
Proof.
  induction pre as [|c pre IH].
  - reflexivity.
  - unfold nth_line in *. cbn [app lines_of count_lf last_line].
    pose proof (lines_of_nonempty (pre ++ post)) as Hne.
    destruct (c =? cLF) eqn:Ec.
    + replace (N.to_nat (1 + count_lf pre)) with (S (N.to_nat (count_lf pre))) by lia.
      destruct (1 + count_lf pre =? 0) eqn:E; [lia|]. cbn [nth]. exact IH.
    + replace (0 + count_lf pre) with (count_lf pre) by lia.
      destruct (lines_of (pre ++ post)) as [|l ls] eqn:El; [contradiction|].
      destruct (count_lf pre =? 0) eqn:E.
      * assert (E0 : count_lf pre = 0) by lia. rewrite E0 in *. cbn [N.to_nat nth] in *.
        rewrite IH. rewrite last_line_id by exact E0. reflexivity.
      * destruct (N.to_nat (count_lf pre)) as [|n] eqn:E2; [lia|]. cbn [nth] in *. exact IH.
Qed.

Lemma uc_of c col :
  uc_len {| uc_start := col; uc_end := col + utf8_len c |} = utf8_len c.
Proof. unfold uc_len; cbn [uc_end uc_start]; lia. Qed.
Lemma uc16_of c col :
  uc_len_utf16 {| uc_start := col; uc_end := col + utf8_len c |} = utf16_len c.
Proof.
  unfold uc_len_utf16. rewrite uc_of. unfold utf8_len, utf16_len.
  destruct (c <? 0x10000) eqn:A, (c <? 0x800) eqn:B, (c <? 0x80) eqn:C; try reflexivity; lia.
Qed.
Lemma ascii_lens c : c <? 128 = true -> utf8_len c = 1 /\ utf16_len c = 1.
Proof.
  intros H. unfold utf8_len, utf16_len. destruct (c <? 0x80) eqn:A; [|lia].
  destruct (c <? 0x10000) eqn:B; [auto|lia].
Qed.

Lemma tlen16_le t : tlen16 t <= tlen t.
Proof. induction t as [|c t IH]; cbn [tlen tlen16]; [lia|]. pose proof (utf16_le_utf8 c); lia. Qed.

Lemma utf8_16_loop_spec a b base r :
  tlen a - tlen16 a <= r ->
  utf8_to_utf16_loop (wide_from base (a ++ b)) (base + tlen a) r = Ok (r - (tlen a - tlen16 a)).
Proof.
  revert base r; induction a as [|c a IH]; intros base r; cbn [app tlen tlen16 wide_from].
  - intros _. replace (r - (0 - 0)) with r by lia.
    assert (G : forall l base', base <= base' ->
              utf8_to_utf16_loop (wide_from base' l) (base + 0) r = Ok r).
    { induction l as [|c l IHl]; intros base' Hb; cbn [wide_from]; [reflexivity|].
      destruct (c <? 128); [apply IHl; lia|]. cbn [utf8_to_utf16_loop uc_end].
      pose proof (utf8_len_pos c). destruct (_ <=? _) eqn:E; [lia|reflexivity]. }
    apply G; lia.
  - intros Hr. pose proof (utf16_le_utf8 c). pose proof (tlen16_le a).
    destruct (c <? 128) eqn:Ea.
    + destruct (ascii_lens c Ea) as [-> ->].
      replace (base + (1 + tlen a)) with (base + 1 + tlen a) by lia.
      rewrite IH by (destruct (ascii_lens c Ea); lia). f_equal; destruct (ascii_lens c Ea); lia.
    + cbn [utf8_to_utf16_loop uc_end].
      destruct (_ <=? _) eqn:E; [|lia].
      rewrite uc_of, uc16_of. unfold u32_sub at 1.
      destruct (utf16_len c <=? utf8_len c) eqn:E2; [|lia]. cbn [bind].
      unfold u32_sub. destruct (_ <=? r) eqn:E3; [|lia]. cbn [bind].
      replace (base + (utf8_len c + tlen a)) with (base + utf8_len c + tlen a) by lia.
      rewrite IH by lia. f_equal; lia.
Qed.

(* invariant: [col] is [cur] plus the utf16 length of what remains *)
Lemma utf16_8_loop_spec a b base :
  base + tlen a < u32_bound ->
  utf16_to_utf8_loop (wide_from base (a ++ b)) (base + tlen16 a) = Ok (base + tlen a).
Proof.
  revert base; induction a as [|c a IH]; intros base Hb; cbn [app tlen tlen16 wide_from].
  - assert (G : forall l base', base <= base' ->
              utf16_to_utf8_loop (wide_from base' l) (base + 0) = Ok (base + 0)).
    { induction l as [|c l IHl]; intros base' Hb'; cbn [wide_from]; [reflexivity|].
      destruct (c <? 128); [apply IHl; lia|]. cbn [utf16_to_utf8_loop uc_start].
      destruct (_ <? _) eqn:E; [lia|reflexivity]. }
    apply G; lia.
  - cbn [tlen] in Hb. pose proof (utf16_le_utf8 c). pose proof (tlen16_le a).
    pose proof (utf16_len_pos c).
    destruct (c <? 128) eqn:Ea.
    + destruct (ascii_lens c Ea) as [H8 H16]. rewrite H8, H16 in *.
      replace (base + (1 + tlen16 a)) with (base + 1 + tlen16 a) by lia.
      rewrite IH by lia. f_equal; lia.
    + cbn [utf16_to_utf8_loop uc_start].
      destruct (base <? _) eqn:E; [|lia].
      rewrite uc_of, uc16_of. unfold u32_sub at 1.
      destruct (utf16_len c <=? utf8_len c) eqn:E2; [|lia]. cbn [bind].
      unfold u32_add. destruct (_ <? u32_bound) eqn:E3; [|lia]. cbn [bind].
      replace (base + (utf16_len c + tlen16 a) + (utf8_len c - utf16_len c))
        with (base + utf8_len c + tlen16 a) by lia.
      rewrite IH by lia. f_equal; lia.
Qed.

Lemma last_line_le pre : tlen (last_line pre) <= tlen pre.
Proof. pose proof (line_start_eq pre); lia. Qed.

Lemma to_utf16_spec pre post :
  li_to_utf16 (li_build (pre ++ post))
    {| lc_line := count_lf pre; lc_col := tlen (last_line pre) |}
  = Ok {| lc_line := count_lf pre; lc_col := tlen16 (last_line pre) |}.
Proof.
  unfold li_to_utf16; cbn [lc_line lc_col]. rewrite u8_16_build, nth_line_prefix.
  pose proof (tlen16_le (last_line pre)).
  pose proof (utf8_16_loop_spec (last_line pre) (nth_line post 0) 0 (tlen (last_line pre))) as G.
  rewrite N.add_0_l in G. rewrite G by lia. cbn [bind]. do 2 f_equal; lia.
Qed.

Lemma to_utf8_spec pre post :
  tlen pre < u32_bound ->
  li_to_utf8 (li_build (pre ++ post))
    {| lc_line := count_lf pre; lc_col := tlen16 (last_line pre) |}
  = Ok {| lc_line := count_lf pre; lc_col := tlen (last_line pre) |}.
Proof.
  intros Hb. unfold li_to_utf8; cbn [lc_line lc_col]. rewrite u16_8_build, nth_line_prefix.
  pose proof (last_line_le pre).
  replace (tlen16 (last_line pre)) with (0 + tlen16 (last_line pre)) by lia.
  rewrite utf16_8_loop_spec by lia. reflexivity.
Qed.

Lemma prefix_before_split pre post : prefix_before (pre ++ post) pre (tlen pre).
Proof.
  exists post. repeat split; [lia|]. destruct post as [|c r]; [auto|]. right.
  exists c, r. split; [auto|]. pose proof (utf8_len_pos c); lia.
Qed.

(** ** C37 *)
Definition spec_position (enc : encoding) (pre : text) : position :=
  {| p_line := count_lf pre;
     p_char := match enc with Utf8 => tlen (last_line pre) | Utf16 => tlen16 (last_line pre) end |}.

Lemma tp_position_spec enc pre post :
  tp_position enc (li_build (pre ++ post)) (tlen pre) = Ok (spec_position enc pre).
Proof.
  unfold tp_position. rewrite (line_col_prefix _ pre) by apply prefix_before_split.
  cbn [bind]. replace (tlen pre - tlen pre + tlen (last_line pre)) with (tlen (last_line pre)) by lia.
  destruct enc; [reflexivity|]. rewrite to_utf16_spec. reflexivity.
Qed.

Lemma nth_newline pre post :
  nth_error (newlines (li_build (pre ++ post))) (N.to_nat (count_lf pre)) = Some (line_start pre).
Proof.
  rewrite newlines_build, starts_from_app.
  change (0 :: starts_from 0 pre ++ starts_from (0 + tlen pre) post)
    with ((0 :: starts_from 0 pre) ++ starts_from (0 + tlen pre) post).
  rewrite nth_error_app1 by (cbn [length]; rewrite <- (starts_from_length 0 pre); lia).
  apply nth_line_start.
Qed.

Lemma fp_offset_spec enc pre post :
  tlen pre < u32_bound ->
  fp_offset enc (li_build (pre ++ post)) (spec_position enc pre) = Ok (tlen pre).
Proof.
  intros Hb. unfold fp_offset, spec_position; cbn [p_line p_char].
  assert (G : li_offset (li_build (pre ++ post))
           {| lc_line := count_lf pre; lc_col := tlen (last_line pre) |} = Ok (tlen pre)).
  { unfold li_offset; cbn [lc_line lc_col]. rewrite nth_newline. cbn [index bind].
    pose proof (line_start_eq pre). unfold u32_add. destruct (_ <? _) eqn:E; [|lia]. f_equal; lia. }
  destruct enc; cbn [bind].
  - exact G.
  - rewrite to_utf8_spec by auto. cbn [bind]. exact G.
Qed.

(** ** C04 *)
Lemma sorted_lt_partition (p : N -> bool) l :
  (forall x y, p y = true -> x < y -> p x = true) -> sorted_lt l ->
  firstn (partition_point p l) l = filter p l /\
  skipn (partition_point p l) l = filter (fun x => negb (p x)) l.
Proof.
  intros Hmono. induction 1 as [|x l Hx Hs [IH1 IH2]]; [split; reflexivity|].
  cbn [partition_point filter]. destruct (p x) eqn:E; cbn [firstn skipn negb].
  - rewrite IH1, IH2; auto.
  - assert (Hall : forall y, In y l -> p y = false).
    { intros y Hy. destruct (p y) eqn:Ey; auto. apply Hx in Hy.
      rewrite (Hmono x y) in E by auto. discriminate. }
    split.
    + symmetry. clear -Hall. induction l as [|y l IH]; cbn; auto.
      rewrite Hall by (left; auto). apply IH. intros; apply Hall; right; auto.
    + f_equal. symmetry. clear -Hall. induction l as [|y l IH]; cbn; auto.
      rewrite Hall by (left; auto). cbn. f_equal. apply IH. intros; apply Hall; right; auto.
Qed.

Lemma sorted_lt_filter p l : sorted_lt l -> sorted_lt (filter p l).
Proof.
  induction 1 as [|x l Hx Hs IH]; cbn; [constructor|]. destruct (p x); auto.
  constructor; auto. intros y Hy; apply filter_In in Hy as [Hy _]; auto.
Qed.

Lemma firstn_skipn_between l lo hi (p q : N -> bool) :
  sorted_lt l ->
  (forall x y, p y = true -> x < y -> p x = true) ->
  (forall x y, q y = true -> x < y -> q x = true) ->
  (forall x, p x = true -> q x = true) ->
  lo = partition_point p l -> hi = partition_point q l ->
  (lo <= hi)%nat /\ firstn (hi - lo) (skipn lo l) = filter (fun x => negb (p x) && q x) l.
Proof.
  intros Hs Hp Hq Hpq -> ->. induction Hs as [|x l Hx Hs [IH1 IH2]]; [split; reflexivity|].
  cbn [partition_point filter]. destruct (p x) eqn:Ep; cbn [negb andb].
  - rewrite (Hpq x Ep). cbn [skipn]. split; [lia|]. exact IH2.
  - destruct (q x) eqn:Eq; (split; [lia|]); cbn [skipn].
    + rewrite Nat.sub_0_r. cbn [firstn]. f_equal.
      destruct (sorted_lt_partition q l Hq Hs) as [-> _].
      assert (Hall : forall y, In y l -> p y = false).
      { intros y Hy. destruct (p y) eqn:Ey; auto. apply Hx in Hy.
        rewrite (Hp x y) in Ep by auto. discriminate. }
      clear -Hall. induction l as [|y l IH]; cbn; auto.
      rewrite Hall by (left; auto). cbn. destruct (q y); [f_equal|]; apply IH; intros; apply Hall; right; auto.
    + rewrite Nat.sub_0_r. cbn [firstn].
      assert (Hall : forall y, In y l -> q y = false).
      { intros y Hy. destruct (q y) eqn:Ey; auto. apply Hx in Hy.
        rewrite (Hq x y) in Eq by auto. discriminate. }
      symmetry. clear -Hall. induction l as [|y l IH]; cbn; auto.
      rewrite Hall by (left; auto). rewrite andb_false_r. apply IH. intros; apply Hall; right; auto.
Qed.

(** Specification of a cut of [s, e] at points [cuts] (increasing, strictly
    inside). *)
Fixpoint cut (s : N) (cuts : list N) (e : N) : list (N * N) :=
  match cuts with
  | [] => if s =? e then [] else [(s, e)]
  | c :: cs => (s, c) :: cut c cs e
  end.

Lemma neighbours_nonempty s l e :
  sorted_lt l -> (forall x, In x l -> s <= x <= e) -> s <= e ->
  forallb (fun p => fst p <=? snd p) (neighbours (s :: l ++ [e])) = true /\
  filter (fun p => negb (fst p =? snd p)) (neighbours (s :: l ++ [e])) =
  cut s (filter (fun x => (s <? x) && (x <? e)) l) e.
Proof.
  intros Hs. revert s. induction Hs as [|x l Hx Hs IH]; intros s Hin Hse.
  - cbn. destruct (s =? e) eqn:E; cbn; split; auto; destruct (s <=? e) eqn:E2; auto; lia.
  - assert (Hsx : s <= x <= e) by (apply Hin; left; auto).
    change (neighbours (s :: (x :: l) ++ [e])) with ((s, x) :: neighbours (x :: l ++ [e])).
    cbn [forallb filter fst snd].
    destruct (IH x) as [IH1 IH2].
    { intros y Hy. pose proof (Hx y Hy). assert (s <= y <= e) by (apply Hin; right; auto). lia. }
    { lia. }
    rewrite IH1, IH2. destruct (s <=? x) eqn:E1; [|lia]. split; [reflexivity|].
    destruct (s =? x) eqn:E2; cbn [negb].
    + assert (Es : s = x) by lia. subst s. destruct (x <? x) eqn:E3; [lia|]. cbn [andb]. reflexivity.
    + destruct (s <? x) eqn:E3; [|lia]. cbn [andb].
      destruct (x <? e) eqn:E4; cbn [cut].
      * f_equal. f_equal. apply filter_ext_in. intros y Hy.
        pose proof (Hx y Hy). destruct (x <? y) eqn:A, (s <? y) eqn:B; auto; lia.
      * (* x = e: no further elements *)
        assert (l = []) as ->.
        { destruct l as [|y l]; auto. exfalso.
          assert (s <= y <= e) by (apply Hin; right; left; auto).
          assert (x < y) by (apply Hx; left; auto). lia. }
        cbn [filter cut]. assert (Ex : x = e) by lia. subst x.
        rewrite N.eqb_refl, E2. reflexivity.
Qed.

Lemma lines_spec t s e :
  s <= e ->
  li_lines (li_build t) s e =
    Ok (cut s (filter (fun x => (s <? x) && (x <? e)) (starts_from 0 t)) e).
Proof.
  intros Hse. unfold li_lines.
  destruct (firstn_skipn_between (newlines (li_build t))
             (partition_point (fun it => it <? s) (newlines (li_build t)))
             (partition_point (fun it => it <=? e) (newlines (li_build t)))
             (fun it => it <? s) (fun it => it <=? e)) as [Hle Heq]; auto;
    try (intros; lia).
  { apply newlines_sorted. }
  destruct (_ <=? _)%nat eqn:E; [|lia].
  rewrite Heq.
  destruct (neighbours_nonempty s
      (filter (fun x => negb (x <? s) && (x <=? e)) (newlines (li_build t))) e) as [H1 H2].
  - apply sorted_lt_filter, newlines_sorted.
  - intros x Hx. apply filter_In in Hx as [_ Hx]. lia.
  - exact Hse.
  - rewrite H1, H2. f_equal. f_equal.
    rewrite newlines_build. cbn [filter].
    assert (G : forall l, filter (fun x => (s <? x) && (x <? e))
        (filter (fun x => negb (x <? s) && (x <=? e)) l) =
        filter (fun x => (s <? x) && (x <? e)) l).
    { induction l as [|x l IH]; cbn; auto.
      destruct (x <? s) eqn:A, (x <=? e) eqn:B, (s <? x) eqn:C, (x <? e) eqn:D; cbn;
        rewrite ?C, ?D; cbn; rewrite ?IH; auto; lia. }
    destruct (negb (0 <? s) && (0 <=? e)) eqn:E0; cbn [filter].
    + destruct (s <? 0) eqn:E1; [lia|]. cbn [andb]. apply G.
    + apply G.
Qed.

Lemma starts_from_In p t x :
  In x (starts_from p t) <->
  exists pre post, t = pre ++ cLF :: post /\ x = p + tlen pre + 1.
Proof.
  revert p; induction t as [|c t IH]; intros p; cbn [starts_from].
  - split; [intros []|]. intros [pre [post [H _]]]. destruct pre; discriminate.
  - assert (HH : In x (starts_from (p + utf8_len c) t) <->
        exists pre post, c :: t = (c :: pre) ++ cLF :: post /\ x = p + tlen (c :: pre) + 1).
    { rewrite IH. cbn [tlen app]. split; intros [pre [post [H1 H2]]]; exists pre, post.
      - subst; split; [auto|lia].
      - injection H1 as ->. split; [auto|lia]. }
    destruct (c =? cLF) eqn:Ec; cbn [In].
    + assert (c = cLF) by lia. subst c.
      assert (L1 : utf8_len cLF = 1) by reflexivity. split.
      * intros [<-|H]; [exists [], t; split; [auto|cbn [tlen]; lia]|].
        apply HH in H as [pre [post H]]. exists (cLF :: pre), post; auto.
      * intros [[|d pre] [post [H1 H2]]].
        -- left. cbn [tlen] in H2. lia.
        -- right. apply HH. cbn in H1. injection H1 as <- ->. exists pre, post. auto.
    + rewrite HH. split; [intros [pre [post H]]; exists (c :: pre), post; auto|].
      intros [[|d pre] [post [H1 H2]]].
      * cbn in H1. injection H1 as H1 _. lia.
      * cbn in H1. injection H1 as <- ->. exists pre, post; auto.
Qed.

(** ** C04 in terms of tiles *)
Lemma cut_tiles l s e :
  sorted_lt l -> (forall x, In x l -> s < x < e) -> s <= e -> tiles s (cut s l e) e.
Proof.
  intros Hs. revert s; induction Hs as [|x l Hx Hs IH]; intros s Hin Hse; cbn [cut].
  - destruct (s =? e) eqn:E; cbn [tiles]; [lia|]. split; [auto|]. split; [lia|auto].
  - cbn [tiles]. assert (s < x < e) by (apply Hin; left; auto). split; [auto|]. split; [lia|].
    apply IH; [|lia]. intros y Hy. specialize (Hx y Hy). assert (s < y < e) by (apply Hin; right; auto). lia.
Qed.
Lemma cut_starts l s e :
  s < e -> (forall y, In y l -> y < e) -> map fst (cut s l e) = s :: l.
Proof.
  revert s; induction l as [|y l IH]; intros s Hse Hin; cbn [cut].
  - destruct (s =? e) eqn:E; [lia|reflexivity].
  - cbn [map fst]. rewrite IH; auto; [apply Hin; left; auto|intros; apply Hin; right; auto].
Qed.

Lemma sorted_filter f l : sorted_lt l -> sorted_lt (filter f l).
Proof.
  induction 1 as [|x l Hx Hs IH]; cbn [filter]; [constructor|].
  destruct (f x); auto. constructor; auto. intros y Hy. apply filter_In in Hy as [Hy _]; auto.
Qed.

Lemma lines_tiles t s e :
  s <= e ->
  exists rs, li_lines (li_build t) s e = Ok rs /\ tiles s rs e /\
    forall x, s < x < e -> (In x (map fst rs) <-> line_start_at t x).
Proof.
  intros Hse. eexists; split; [apply lines_spec; auto|].
  set (l := filter _ _).
  assert (Hl : forall x, In x l <-> s < x < e /\ In x (starts_from 0 t)).
  { intros x. unfold l. rewrite filter_In. split; intros [H1 H2]; split; auto; lia. }
  split.
  - apply cut_tiles; auto; [apply sorted_filter, starts_from_sorted|]. intros x Hx. apply Hl in Hx; tauto.
  - intros x Hx. rewrite cut_starts; [|lia|intros y Hy; apply Hl in Hy; lia].
    cbn [In]. rewrite Hl, starts_from_In. unfold line_start_at. split.
    + intros [H|[_ [a [b [-> H]]]]]; [lia|]. exists a, b. split; auto. rewrite tlen_app. cbn [tlen].
      change (utf8_len cLF) with 1. lia.
    + intros [a [b [-> H]]]. right. split; auto. exists a, b. split; auto. rewrite tlen_app in H. cbn [tlen] in H.
      change (utf8_len cLF) with 1 in H. lia.
Qed.
