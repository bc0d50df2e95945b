(** Tags: the loop reads exactly the written documents. *)
From Coq Require Import Permutation Sorted.
From Verif Require Import Base BaseProofs Lexer Stdx StdxSpec Tags TagsSpec.
Open Scope N_scope.

(** ** Trimming *)
Lemma trim_start_split t : exists s, t = s ++ trim_start t /\ blank s /\
  (forall c r, trim_start t = c :: r -> is_white_space c = false).
Proof.
  induction t as [|c t IH]; [exists []; repeat split; [constructor|discriminate]|]. cbn [trim_start].
  destruct (is_white_space c) eqn:W.
  - destruct IH as (s & E & B & H). exists (c :: s). cbn. rewrite <- E. repeat split; [constructor; auto|exact H].
  - exists []. repeat split; [constructor|]. intros c' r [= <- <-]. exact W.
Qed.
Lemma blank_rev s : blank s -> blank (rev s).
Proof. unfold blank. rewrite !Forall_forall. intros H x Hx. apply H. rewrite in_rev. exact Hx. Qed.
Lemma blank_app a b : blank a -> blank b -> blank (a ++ b).
Proof. unfold blank. intros; apply Forall_app; auto. Qed.
Lemma trim_trimmed t : trimmed t (trim t).
Proof.
  unfold trim, trim_end. destruct (trim_start_split t) as (a & Ea & Ba & Ha).
  destruct (trim_start_split (rev (trim_start t))) as (b & Eb & Bb & Hb).
  exists a, (rev b). apply (f_equal (@rev N)) in Eb. rewrite rev_involutive, rev_app_distr in Eb.
  split; [rewrite <- Eb; exact Ea|]. split; [exact Ba|]. split; [apply blank_rev; exact Bb|].
  split.
  - intros c r E. rewrite E in Eb. eapply Ha. rewrite Eb. reflexivity.
  - intros c r E. apply (f_equal (@rev N)) in E. rewrite rev_involutive, rev_app_distr in E. eapply Hb. exact E.
Qed.
Lemma trimmed_nil t : trimmed t [] -> blank t.
Proof. intros (a & b & -> & A & B & _). apply blank_app; assumption. Qed.
Lemma trim_start_blank s t : blank s -> trim_start (s ++ t) = trim_start t.
Proof. induction 1 as [|c s H B IH]; [reflexivity|]. cbn. rewrite H. exact IH. Qed.
Lemma trim_start_id t : (forall c r, t = c :: r -> is_white_space c = false) -> trim_start t = t.
Proof. destruct t as [|c t]; intros H; [reflexivity|]. cbn. rewrite (H c t eq_refl). reflexivity. Qed.
Lemma trim_start_all t : blank t -> trim_start t = [].
Proof. intros B. rewrite <- (app_nil_r t). rewrite trim_start_blank by exact B. reflexivity. Qed.
Lemma trimmed_fun t v : trimmed t v -> trim t = v.
Proof.
  intros (a & b & -> & A & B & H1 & H2). unfold trim, trim_end.
  rewrite trim_start_blank by exact A. destruct v as [|c v].
  - cbn [app]. rewrite (trim_start_all b) by exact B. reflexivity.
  - rewrite (trim_start_id ((c :: v) ++ b)) by (intros x r [= <- _]; eapply H1; reflexivity).
    rewrite rev_app_distr. rewrite trim_start_blank by (apply blank_rev; exact B).
    rewrite trim_start_id; [apply rev_involutive|].
    intros x r E. eapply H2. apply (f_equal (@rev N)) in E. rewrite rev_involutive in E. exact E.
Qed.
Lemma tag_attr_value a : attr_value a (tag_attr a).
Proof.
  unfold tag_attr. pose proof (trim_trimmed a) as T. destruct (trim a) as [|c v] eqn:E.
  - apply trimmed_nil. exact T.
  - split; [discriminate|exact T].
Qed.
Lemma attr_value_fun a v : attr_value a v -> tag_attr a = v.
Proof.
  unfold tag_attr. destruct v as [v|]; cbn.
  - intros [H T]. rewrite (trimmed_fun _ _ T). destruct v; [congruence|reflexivity].
  - intros B. unfold trim. rewrite trim_start_all by exact B. reflexivity.
Qed.

(** ** The loop *)
Lemma starts_one c x t : starts_with (x :: t) [c] = (x =? c).
Proof. cbn. destruct (x =? c); destruct t; reflexivity. Qed.
Lemma find_char_none c t : find_str [c] t = None <-> ~ In c t.
Proof.
  induction t as [|x t IH]; [cbn; split; [intros _ []|reflexivity]|].
  change (find_str [c] (x :: t)) with (if starts_with (x :: t) [c] then Some 0 else
    match find_str [c] t with Some n => Some (utf8_len x + n) | None => None end).
  rewrite starts_one. cbn [In]. destruct (x =? c) eqn:E.
  - apply N.eqb_eq in E. split; [intros X; discriminate X|]. intros H. exfalso. apply H. auto.
  - apply N.eqb_neq in E. destruct (find_str [c] t) as [n|].
    + split; [intros X; discriminate X|]. intros H. destruct IH as [_ IH]. enough (Some n = None) as X by discriminate X. apply IH. intuition.
    + split; [|reflexivity]. intros _. destruct IH as [IH _]. specialize (IH eq_refl). intuition.
Qed.
Lemma find_char_some c a b : ~ In c a -> find_str [c] (a ++ c :: b) = Some (tlen a).
Proof.
  assert (U : forall y r, find_str [c] (y :: r) = if starts_with (y :: r) [c] then Some 0 else
    match find_str [c] r with Some n => Some (utf8_len y + n) | None => None end) by reflexivity.
  induction a as [|x a IH]; intros H; cbn [app]; rewrite U, starts_one.
  - rewrite N.eqb_refl. reflexivity.
  - destruct (x =? c) eqn:E; [apply N.eqb_eq in E; subst; exfalso; apply H; left; reflexivity|].
    rewrite IH by (intros I; apply H; right; exact I). reflexivity.
Qed.
Lemma slice_app_to a b : slice_to (a ++ b) (tlen a) = Ok a.
Proof. unfold slice_to. rewrite split_at_app. reflexivity. Qed.
Lemma slice_app_from a b : slice_from (a ++ b) (tlen a) = Ok b.
Proof. unfold slice_from. rewrite split_at_app. reflexivity. Qed.

Ltac len := repeat (rewrite app_length || cbn [length app]).
Ltac len_in H := repeat (rewrite app_length in H || cbn [length app] in H).
Section Loop.
  Context (tag : text) (Htag : tag_name tag).
  Notation loop := (fun f t out st rs => tags_loop f tag t out st rs).

  (** A character that is not '<' is copied. *)
  Lemma loop_char f c t out st rs : c <> cLt ->
    tags_loop (S f) tag (c :: t) out st rs = tags_loop (S f) tag t (out ++ [c]) st rs.
  Proof.
    intros Hc. cbn [tags_loop]. destruct (find_str [cLt] t) as [i|] eqn:F.
    - assert (I : In cLt t) by (destruct (in_dec N.eq_dec cLt t) as [I|I]; [exact I|apply find_char_none in I; congruence]).
      apply in_split in I. destruct I as (a & b & Eab).
      assert (exists a b, t = a ++ cLt :: b /\ ~ In cLt a) as (a' & b' & -> & Ha).
      { clear -Eab. revert t b Eab. induction a as [|x a IH]; intros t b ->; [exists [], b; split; [reflexivity|intros []]|].
        destruct (IH _ b eq_refl) as (a' & b' & E & H). destruct (N.eq_dec x cLt) as [->|N].
        - exists [], (a ++ cLt :: b). split; [reflexivity|intros []].
        - exists (x :: a'), b'. cbn. rewrite E. split; [reflexivity|]. intros [I|I]; [congruence|exact (H I)]. }
      rewrite find_char_some in F by exact Ha. injection F as <-.
      change (c :: a' ++ cLt :: b') with ((c :: a') ++ cLt :: b').
      rewrite find_char_some by (intros [I|I]; [congruence|exact (Ha I)]).
      rewrite !slice_app_to, !slice_app_from. cbn [bind]. rewrite <- !app_assoc. reflexivity.
    - apply find_char_none in F.
      assert (F' : find_str [cLt] (c :: t) = None).
      { apply find_char_none. intros [I|I]; [congruence|exact (F I)]. }
      rewrite F'. rewrite <- app_assoc. reflexivity.
  Qed.
  Lemma loop_nil f out st rs : tags_loop (S f) tag [] out st rs = Ok (rs, out, st).
  Proof. cbn. rewrite app_nil_r. reflexivity. Qed.

  Lemma open_len : tlen (open_tag tag) = 1 + tlen tag. Proof. reflexivity. Qed.
  Lemma cut_gt t : In cGt t -> exists a b, t = a ++ cGt :: b /\ ~ In cGt a.
  Proof.
    induction t as [|x t IH]; [intros []|]. destruct (N.eq_dec x cGt) as [->|N].
    - intros _. exists [], t. split; [reflexivity|intros []].
    - intros [I|I]; [congruence|]. destruct (IH I) as (a & b & -> & H). exists (x :: a), b.
      split; [reflexivity|]. intros [J|J]; [congruence|exact (H J)].
  Qed.
  (** An opening tag. *)
  Lemma loop_open f attr t out st rs : ~ In cGt attr ->
    tags_loop (S f) tag ([60] ++ tag ++ attr ++ [62] ++ t) out st rs =
    (let! from := text_size_of out in tags_loop f tag t out ((from, tag_attr attr) :: st) rs).
  Proof.
    intros Ha. cbn [app tags_loop]. change (60 :: tag ++ attr ++ 62 :: t) with ([] ++ cLt :: tag ++ attr ++ cGt :: t).
    rewrite find_char_some by intros []. rewrite slice_app_to, slice_app_from. cbn [bind]. rewrite app_nil_r.
    assert (S1 : starts_with (cLt :: tag ++ attr ++ cGt :: t) (open_tag tag) = true).
    { apply starts_with_spec. exists (attr ++ cGt :: t). reflexivity. }
    rewrite S1.
    assert (Hn : ~ In cGt ((cLt :: tag) ++ attr)).
    { rewrite in_app_iff. intros [[I|I]|I]; [discriminate|exact (proj1 (proj2 Htag) I)|exact (Ha I)]. }
    replace (cLt :: tag ++ attr ++ cGt :: t) with (((cLt :: tag) ++ attr) ++ cGt :: t) by (rewrite <- app_assoc; reflexivity).
    rewrite find_char_some by exact Hn. cbn [unwrap bind].
    rewrite slice_app_to. cbn [bind]. unfold open_tag at 1. rewrite slice_app_from. cbn [bind].
    replace (((cLt :: tag) ++ attr) ++ cGt :: t) with ((((cLt :: tag) ++ attr) ++ [cGt]) ++ t) by (rewrite <- app_assoc; reflexivity).
    replace (tlen ((cLt :: tag) ++ attr) + utf8_len cGt) with (tlen (((cLt :: tag) ++ attr) ++ [cGt])) by (rewrite !tlen_app; reflexivity).
    rewrite slice_app_from. cbn [bind]. reflexivity.
  Qed.
  Lemma close_not_open t : starts_with (cLt :: 47 :: tag ++ [cGt] ++ t) (open_tag tag) = false.
  Proof.
    destruct (starts_with _ (open_tag tag)) eqn:E; [|reflexivity]. apply starts_with_spec in E as [r E].
    unfold open_tag in E. injection E as E. destruct Htag as (_ & _ & H). destruct tag as [|c tag']; [contradiction|].
    injection E as E _. congruence.
  Qed.
  (** A closing tag. *)
  Lemma loop_close f t out st rs :
    tags_loop (S f) tag ([60; 47] ++ tag ++ [62] ++ t) out st rs =
    match st with
    | [] => Panic PUnreachable
    | (from, attr) :: st =>
        let! to_ := text_size_of out in let! _ := assert_ (from <=? to_) in
        tags_loop f tag t out st (rs ++ [(from, to_, attr)])
    end.
  Proof.
    cbn [app tags_loop]. change (60 :: 47 :: tag ++ 62 :: t) with ([] ++ cLt :: 47 :: tag ++ [cGt] ++ t).
    rewrite find_char_some by intros []. rewrite slice_app_to, slice_app_from. cbn [bind]. rewrite app_nil_r.
    rewrite close_not_open.
    assert (S1 : starts_with (cLt :: 47 :: tag ++ [cGt] ++ t) (close_tag tag) = true).
    { apply starts_with_spec. exists t. unfold close_tag. cbn. rewrite <- app_assoc. reflexivity. }
    rewrite S1. replace (cLt :: 47 :: tag ++ [cGt] ++ t) with (close_tag tag ++ t) by (unfold close_tag; cbn; rewrite <- app_assoc; reflexivity).
    rewrite slice_app_from. cbn [bind]. reflexivity.
  Qed.
  (** A '<' that starts no tag is copied. *)
  Lemma loop_lt f t out st rs :
    starts_with (cLt :: t) (open_tag tag) = false -> starts_with (cLt :: t) (close_tag tag) = false ->
    tags_loop (S f) tag (cLt :: t) out st rs = tags_loop f tag t (out ++ [cLt]) st rs.
  Proof.
    intros H1 H2. cbn [tags_loop]. change (cLt :: t) with ([] ++ cLt :: t).
    rewrite find_char_some by intros []. rewrite slice_app_to, slice_app_from. cbn [bind app]. rewrite app_nil_r.
    rewrite H1, H2. change (cLt :: t) with ([cLt] ++ t). change (utf8_len cLt) with (tlen [cLt]).
    rewrite slice_app_from. reflexivity.
  Qed.

  (** ** Reading what was written *)
  Definition free (t : text) : Prop := ~ occurs ([60] ++ tag) t /\ ~ occurs ([60; 47] ++ tag ++ [62]) t.
  Definition stops (t : text) : Prop := match t with [] => True | c :: _ => c = cLt end.
  (** a text without the prefix does not get it from a tag that follows *)
  Lemma prefix_stops p t r : ~ In cLt p -> stops r -> starts_with (t ++ r) p = true -> starts_with t p = true.
  Proof.
    revert p. induction t as [|c t IH]; intros p Hp Hr.
    - destruct p as [|x p]; [reflexivity|]. destruct r as [|y r]; [discriminate|]. cbn in Hr. subst y. cbn [starts_with app].
      destruct (cLt =? x) eqn:E; cbn [andb]; [|intros X; discriminate X]. apply N.eqb_eq in E. exfalso. apply Hp. left. auto.
    - destruct p as [|x p]; [reflexivity|]. cbn [starts_with app]. destruct (c =? x); cbn [andb]; [|intros X; discriminate X].
      apply IH; [intros I; apply Hp; right; exact I|exact Hr].
  Qed.
  Lemma free_tail c t : free (c :: t) -> free t.
  Proof.
    intros [H1 H2]. split; intros (a & b & ->); [apply H1|apply H2]; exists (c :: a), b; reflexivity.
  Qed.
  Lemma free_head t r : free (cLt :: t) -> stops r ->
    starts_with (cLt :: t ++ r) (open_tag tag) = false /\ starts_with (cLt :: t ++ r) (close_tag tag) = false.
  Proof.
    intros [H1 H2] Hr. destruct Htag as (T1 & T2 & _). split.
    - destruct (starts_with _ (open_tag tag)) eqn:E; [|reflexivity]. exfalso. apply H1. cbn in E.
      apply prefix_stops in E; [|exact T1|exact Hr]. apply starts_with_spec in E as [b ->]. exists [], b. reflexivity.
    - destruct (starts_with _ (close_tag tag)) eqn:E; [|reflexivity]. exfalso. apply H2.
      change (starts_with (t ++ r) (47 :: tag ++ [cGt]) = true) in E.
      apply prefix_stops in E; [| |exact Hr].
      + apply starts_with_spec in E as [b ->]. exists [], b. cbn. rewrite <- !app_assoc. reflexivity.
      + intros [I|I]; [discriminate|]. apply in_app_or in I as [I|[I|[]]]; [exact (T1 I)|discriminate].
  Qed.
  Lemma loop_free t r : free t -> stops r -> forall f out st rs, (length t + length r < f)%nat ->
    exists f', (length r < f')%nat /\ tags_loop f tag (t ++ r) out st rs = tags_loop f' tag r (out ++ t) st rs.
  Proof.
    induction t as [|c t IH]; intros Hf Hr f out st rs L.
    - exists f. rewrite app_nil_r. split; [exact L|reflexivity].
    - cbn [length] in L. destruct f as [|f]; [lia|]. cbn [app]. destruct (N.eq_dec c cLt) as [->|N].
      + destruct (free_head t r Hf Hr) as [O C]. rewrite loop_lt by assumption.
        destruct (IH (free_tail _ _ Hf) Hr f (out ++ [cLt]) st rs ltac:(lia)) as (f' & L' & E).
        exists f'. rewrite E, <- app_assoc. split; [exact L'|reflexivity].
      + rewrite loop_char by exact N.
        destruct (IH (free_tail _ _ Hf) Hr (S f) (out ++ [c]) st rs ltac:(lia)) as (f' & L' & E).
        exists f'. rewrite E, <- app_assoc. split; [exact L'|reflexivity].
  Qed.

  Fixpoint marks (o : N) (d : doc) : list mark :=
    match d with
    | Plain _ => []
    | Tagged before attr inside after =>
        marks (o + tlen before) inside
        ++ [(o + tlen before, o + tlen before + tlen (shown inside), tag_attr attr)]
        ++ marks (o + tlen before + tlen (shown inside)) after
    end.
  Lemma size_ok t : tlen t < u32_bound -> text_size_of t = Ok (tlen t).
  Proof. intros H. unfold text_size_of. replace (tlen t <? u32_bound) with true by lia. reflexivity. Qed.
  Lemma loop_doc d : proper tag d -> forall r, stops r -> forall f out st rs,
    (length (written tag d) + length r < f)%nat -> tlen out + tlen (shown d) < u32_bound ->
    exists f', (length r < f')%nat /\
      tags_loop f tag (written tag d ++ r) out st rs = tags_loop f' tag r (out ++ shown d) st (rs ++ marks (tlen out) d).
  Proof.
    induction d as [t|before attr inside IHi after IHa]; intros P r Hr f out st rs L B; cbn [written shown marks].
    - destruct (loop_free t r P Hr f out st rs L) as (f' & L' & E). exists f'. rewrite app_nil_r. auto.
    - destruct P as (Pb & Pa & Pi & Pf). cbn [written] in L. len_in L.
      cbn [shown] in B. rewrite !tlen_app in B.
      rewrite <- !app_assoc.
      destruct (loop_free before (([60] ++ tag ++ attr ++ [62] ++ written tag inside ++ ([60; 47] ++ tag ++ [62] ++ written tag after ++ r))) Pb eq_refl f out st rs) as (f1 & L1 & E1).
      { len. lia. }
      rewrite E1. len_in L1.
      destruct f1 as [|f1]; [lia|]. rewrite loop_open by exact Pa.
      rewrite size_ok by (rewrite tlen_app; lia). cbn [bind].
      destruct (IHi Pi ([60; 47] ++ tag ++ [62] ++ written tag after ++ r) eq_refl f1 (out ++ before)
                  ((tlen (out ++ before), tag_attr attr) :: st) rs) as (f2 & L2 & E2).
      { len. lia. }
      { rewrite tlen_app. lia. }
      rewrite E2. len_in L2.
      destruct f2 as [|f2]; [lia|]. rewrite loop_close.
      rewrite size_ok by (rewrite !tlen_app; lia). cbn [bind].
      replace (tlen (out ++ before) <=? tlen ((out ++ before) ++ shown inside)) with true by (rewrite !tlen_app; lia).
      cbn [assert_ bind].
      destruct (IHa Pf r Hr f2 ((out ++ before) ++ shown inside) st
                  ((rs ++ marks (tlen (out ++ before)) inside) ++ [(tlen (out ++ before), tlen ((out ++ before) ++ shown inside), tag_attr attr)])) as (f3 & L3 & E3).
      { lia. }
      { rewrite !tlen_app. lia. }
      exists f3. split; [exact L3|]. rewrite E3. rewrite !tlen_app, <- !app_assoc. reflexivity.
  Qed.

  (** ** Only what was written is read *)
  Fixpoint closed (l : list doc) : text :=
    match l with
    | [] => []
    | [d] => written tag d
    | d :: r => written tag d ++ close_tag tag ++ closed r
    end.
  Lemma closed_cons d r : r <> [] -> closed (d :: r) = written tag d ++ close_tag tag ++ closed r.
  Proof. destruct r; [congruence|reflexivity]. Qed.
  Definition add_char (c : char) (d : doc) : doc :=
    match d with Plain t => Plain (c :: t) | Tagged b a i r => Tagged (c :: b) a i r end.
  Lemma written_add c d : written tag (add_char c d) = c :: written tag d.
  Proof. destruct d; reflexivity. Qed.
  Lemma closed_add c d r : closed (add_char c d :: r) = c :: closed (d :: r).
  Proof. destruct r; cbn; rewrite written_add; reflexivity. Qed.
  Definition first_text (d : doc) : text := match d with Plain t => t | Tagged b _ _ _ => b end.
  Lemma first_prefix d : exists r, written tag d = first_text d ++ r.
  Proof. destruct d; cbn; [exists []; rewrite app_nil_r|]; eauto. Qed.
  Lemma closed_prefix d r : exists x, closed (d :: r) = first_text d ++ x.
  Proof.
    destruct (first_prefix d) as [x E]. destruct r as [|d' r].
    - exists x. exact E.
    - exists (x ++ close_tag tag ++ closed (d' :: r)). rewrite closed_cons by discriminate. rewrite E, <- app_assoc. reflexivity.
  Qed.
  Lemma occurs_cons p c t : occurs p (c :: t) -> (exists r, c :: t = p ++ r) \/ occurs p t.
  Proof.
    intros (a & b & E). destruct a as [|x a]; [left; exists b; exact E|].
    right. injection E as _ E. exists a, b. exact E.
  Qed.
  Lemma add_proper c d r : proper tag d ->
    (c = cLt -> starts_with (c :: closed (d :: r)) (open_tag tag) = false /\ starts_with (c :: closed (d :: r)) (close_tag tag) = false) ->
    proper tag (add_char c d).
  Proof.
    intros P H. assert (F : free (first_text d)) by (destruct d; cbn in *; [exact P|exact (proj1 P)]).
    assert (G : free (c :: first_text d)).
    { destruct (closed_prefix d r) as [x Ex]. destruct F as [F1 F2]. split; intros O; apply occurs_cons in O as [[y Ey]|O]; auto.
      - assert (c = cLt) as -> by (injection Ey; auto). destruct (H eq_refl) as [H1 _].
        rewrite Ex in H1. change (cLt :: first_text d ++ x) with ((cLt :: first_text d) ++ x) in H1. rewrite Ey in H1.
        rewrite <- app_assoc in H1. assert (T : starts_with (([60] ++ tag) ++ y ++ x) (open_tag tag) = true) by (apply starts_with_spec; eexists; reflexivity).
        congruence.
      - assert (c = cLt) as -> by (injection Ey; auto). destruct (H eq_refl) as [_ H1].
        rewrite Ex in H1. change (cLt :: first_text d ++ x) with ((cLt :: first_text d) ++ x) in H1. rewrite Ey in H1.
        rewrite <- app_assoc in H1. assert (T : starts_with (([60; 47] ++ tag ++ [62]) ++ y ++ x) (close_tag tag) = true) by (apply starts_with_spec; eexists; reflexivity).
        congruence. }
    destruct d; cbn in *; [exact G|]. destruct P as (_ & P). split; [exact G|exact P].
  Qed.
  Lemma empty_free : free [].
  Proof. split; intros (a & b & E); destruct a; discriminate. Qed.
  Lemma loop_only f : forall t out st rs rs' out',
    tags_loop f tag t out st rs = Ok (rs', out', []) ->
    exists d ds, length ds = length st /\ proper tag d /\ Forall (proper tag) ds /\ t = closed (d :: ds).
  Proof.
    induction f as [|f IHf]; [discriminate|]. induction t as [|c t IHt]; intros out st rs rs' out' H.
    - rewrite loop_nil in H. injection H as _ _ ->. exists (Plain []), []. split; [reflexivity|]. split; [exact empty_free|]. split; [constructor|reflexivity].
    - destruct (N.eq_dec c cLt) as [->|N].
      + destruct (starts_with (cLt :: t) (open_tag tag)) eqn:O.
        * apply starts_with_spec in O as [r O]. injection O as ->.
          destruct (in_dec N.eq_dec cGt r) as [I|I].
          -- destruct (cut_gt _ I) as (attr & t' & -> & Ha).
             change (cLt :: tag ++ attr ++ cGt :: t') with ([60] ++ tag ++ attr ++ [62] ++ t') in H.
             rewrite loop_open in H by exact Ha. apply bind_ok in H as (from & _ & H).
             apply IHf in H as (d & ds & L & P & Ps & ->). destruct ds as [|d2 ds]; [discriminate|].
             inversion Ps; subst. exists (Tagged [] attr d d2), ds. cbn [length] in L.
             split; [lia|]. split; [cbn [proper]; split; [exact empty_free|auto]|]. split; [assumption|].
             rewrite closed_cons by discriminate. destruct ds as [|d3 ds].
             ++ cbn [closed written]. unfold close_tag. cbn [app]. rewrite <- !app_assoc. reflexivity.
             ++ rewrite (closed_cons d2), (closed_cons (Tagged _ _ _ _)) by discriminate. cbn [written]. unfold close_tag. cbn [app]. repeat (rewrite <- app_assoc; cbn [app]). reflexivity.
          -- exfalso. cbn [tags_loop] in H. change (cLt :: tag ++ r) with ([] ++ cLt :: tag ++ r) in H.
             rewrite find_char_some in H by intros []. rewrite slice_app_to, slice_app_from in H. cbn [bind] in H.
             assert (S1 : starts_with (cLt :: tag ++ r) (open_tag tag) = true) by (apply starts_with_spec; eexists; reflexivity).
             rewrite S1 in H.
             assert (F : find_str [cGt] (cLt :: tag ++ r) = None).
             { apply find_char_none. intros [J|J]; [discriminate|]. apply in_app_or in J as [J|J]; [exact (proj1 (proj2 Htag) J)|exact (I J)]. }
             rewrite F in H. discriminate.
        * destruct (starts_with (cLt :: t) (close_tag tag)) eqn:C.
          -- apply starts_with_spec in C as [r C]. rewrite C in H.
             replace (close_tag tag ++ r) with ([60; 47] ++ tag ++ [62] ++ r) in H by (unfold close_tag; cbn; rewrite <- app_assoc; reflexivity).
             rewrite loop_close in H. destruct st as [|[from attr] st]; [discriminate|].
             apply bind_ok in H as (to_ & _ & H). apply bind_ok in H as (u & _ & H).
             apply IHf in H as (d & ds & L & P & Ps & ->). exists (Plain []), (d :: ds).
             split; [cbn; lia|]. split; [exact empty_free|]. split; [constructor; assumption|].
             rewrite C. rewrite (closed_cons (Plain [])) by discriminate. reflexivity.
          -- rewrite loop_lt in H by assumption. apply IHf in H as (d & ds & L & P & Ps & ->).
             exists (add_char cLt d), ds. split; [exact L|]. split; [|split; [exact Ps|]].
             ++ apply (add_proper _ _ ds P). intros _. split; assumption.
             ++ rewrite closed_add. reflexivity.
      + rewrite loop_char in H by exact N. apply IHt in H as (d & ds & L & P & Ps & ->).
        exists (add_char c d), ds. split; [exact L|]. split; [|split; [exact Ps|]].
        * apply (add_proper _ _ ds P). intros ->. congruence.
        * rewrite closed_add. reflexivity.
  Qed.
  (** The fuel is enough. *)
  Lemma loop_fuel f : forall t out st rs, (length t < f)%nat -> tags_loop f tag t out st rs <> Fuel.
  Proof.
    induction f as [|f IHf]; [lia|]. induction t as [|c t IHt]; intros out st rs L; cbn [length] in L.
    - rewrite loop_nil. discriminate.
    - destruct (N.eq_dec c cLt) as [->|N].
      + destruct (starts_with (cLt :: t) (open_tag tag)) eqn:O.
        * apply starts_with_spec in O as [r O]. injection O as ->.
          destruct (in_dec N.eq_dec cGt r) as [I|I].
          -- destruct (cut_gt _ I) as (attr & t' & -> & Ha).
             change (cLt :: tag ++ attr ++ cGt :: t') with ([60] ++ tag ++ attr ++ [62] ++ t').
             rewrite loop_open by exact Ha. unfold text_size_of. destruct (tlen out <? u32_bound); [|discriminate]. cbn [bind].
             apply IHf. len_in L. lia.
          -- cbn [tags_loop]. change (cLt :: tag ++ r) with ([] ++ cLt :: tag ++ r).
             rewrite find_char_some by intros []. rewrite slice_app_to, slice_app_from. cbn [bind].
             assert (S1 : starts_with (cLt :: tag ++ r) (open_tag tag) = true) by (apply starts_with_spec; eexists; reflexivity).
             rewrite S1.
             assert (F : find_str [cGt] (cLt :: tag ++ r) = None).
             { apply find_char_none. intros [J|J]; [discriminate|]. apply in_app_or in J as [J|J]; [exact (proj1 (proj2 Htag) J)|exact (I J)]. }
             rewrite F. discriminate.
        * destruct (starts_with (cLt :: t) (close_tag tag)) eqn:C.
          -- apply starts_with_spec in C as [r C]. rewrite C.
             assert (Lr : (length r < f)%nat).
             { apply (f_equal (@length N)) in C. unfold close_tag in C. rewrite app_length in C. cbn [length] in C. lia. }
             replace (close_tag tag ++ r) with ([60; 47] ++ tag ++ [62] ++ r) by (unfold close_tag; cbn; rewrite <- app_assoc; reflexivity).
             rewrite loop_close. destruct st as [|[from attr] st]; [discriminate|].
             unfold text_size_of. destruct (tlen out <? u32_bound); [|discriminate]. cbn [bind].
             destruct (from <=? tlen out); [|discriminate]. cbn [assert_ bind]. apply IHf. exact Lr.
          -- rewrite loop_lt by assumption. apply IHf. lia.
      + rewrite loop_char by exact N. apply IHt. lia.
  Qed.
End Loop.

(** ** Sorting *)
Lemma insert_perm x l : Permutation (insert_sorted mark_le x l) (x :: l).
Proof.
  induction l as [|y l IH]; [reflexivity|]. cbn. destruct (mark_le x y); [reflexivity|].
  rewrite IH. apply perm_swap.
Qed.
Lemma sort_perm l : Permutation (stable_sort mark_le l) l.
Proof. induction l as [|x l IH]; [reflexivity|]. cbn. rewrite insert_perm. constructor. exact IH. Qed.
Lemma mark_le_iff a b : mark_le a b = true <-> before_or_at a b.
Proof. destruct a as [[s e] v], b as [[s' e'] v']. unfold before_or_at. cbn. lia. Qed.
Lemma insert_sorted_ok x l : Sorted before_or_at l -> Sorted before_or_at (insert_sorted mark_le x l).
Proof.
  induction 1 as [|y l S IH H]; cbn; [repeat constructor|].
  destruct (mark_le x y) eqn:E.
  - constructor; [constructor; assumption|]. constructor. apply mark_le_iff. exact E.
  - constructor; [exact IH|].
    assert (Hy : before_or_at y x).
    { assert (~ before_or_at x y) by (rewrite <- mark_le_iff; congruence).
      destruct x as [[s e] v], y as [[s' e'] v']. unfold before_or_at in *. cbn in *. lia. }
    destruct l as [|z l]; cbn; [constructor; exact Hy|].
    destruct (mark_le x z); constructor; [exact Hy|]. inversion H; assumption.
Qed.
Lemma sort_sorted l : Sorted before_or_at (stable_sort mark_le l).
Proof. induction l; cbn; [constructor|]. apply insert_sorted_ok. assumption. Qed.
Lemma insert_stable s e x l :
  filter (same_range s e) (insert_sorted mark_le x l) = filter (same_range s e) (x :: l).
Proof.
  induction l as [|y l IH]; [reflexivity|]. cbn [insert_sorted]. destruct (mark_le x y) eqn:E; [reflexivity|].
  cbn [filter] in *. destruct (same_range s e x) eqn:Sx; destruct (same_range s e y) eqn:Sy; try rewrite IH; try reflexivity.
  exfalso. destruct x as [[a b] v], y as [[a' b'] v']. unfold same_range, mark_le in *. cbn in *. lia.
Qed.
Lemma sort_stable s e l : filter (same_range s e) (stable_sort mark_le l) = filter (same_range s e) l.
Proof.
  induction l as [|x l IH]; [reflexivity|]. cbn [stable_sort fold_right]. rewrite insert_stable. cbn [filter].
  unfold stable_sort in IH. rewrite IH. reflexivity.
Qed.

(** ** The parts of a document *)
Lemma marks_parts d : forall o, parts o d (marks o d).
Proof.
  induction d; intros o; [constructor|]. cbn [marks]. constructor; auto using tag_attr_value.
Qed.
Lemma parts_marks o d l : parts o d l -> l = marks o d.
Proof.
  induction 1; [reflexivity|]. cbn [marks]. rewrite (attr_value_fun _ _ H). subst. reflexivity.
Qed.
Lemma parts_cut d : forall o l s e v, parts o d l ->
  (In (s, e, v) l <-> exists a w c, part_of d a w c v /\ s = o + tlen a /\ e = s + tlen w).
Proof.
  intros o l s e v P. revert s e v. induction P as [o t|o before attr inside after v0 l1 l2 A P1 IH1 P2 IH2]; intros s e v.
  - split; [intros []|]. intros (a & w & c & H & _). inversion H.
  - rewrite !in_app_iff, IH1, IH2. cbn [In]. split.
    + intros [(a & w & c & H & -> & ->)|[[E|[]]|(a & w & c & H & -> & ->)]].
      * exists (before ++ a), w, (c ++ shown after). rewrite tlen_app. split; [constructor; exact H|]. lia.
      * injection E as <- <- <-. exists before, (shown inside), (shown after). split; [econstructor; exact A|]. lia.
      * exists (before ++ shown inside ++ a), w, c. rewrite !tlen_app. split; [constructor; exact H|]. lia.
    + intros (a & w & c & H & -> & ->). inversion H; subst; clear H.
      * right. left. left. f_equal.
        match goal with K : attr_value attr v |- _ => rewrite <- (attr_value_fun _ _ K), (attr_value_fun _ _ A) end. reflexivity.
      * left. rewrite tlen_app. do 3 eexists. split; [eassumption|]. lia.
      * right. right. rewrite !tlen_app. do 3 eexists. split; [eassumption|]. lia.
Qed.
Lemma part_shown d a w c v : part_of d a w c v -> shown d = a ++ w ++ c.
Proof. induction 1; cbn; [reflexivity|rewrite IHpart_of..]; rewrite <- !app_assoc; reflexivity. Qed.
Lemma shown_shorter tag d : tlen (shown d) <= tlen (written tag d).
Proof. induction d; cbn [shown written]; [lia|]. rewrite !tlen_app. lia. Qed.
