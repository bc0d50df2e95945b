(** C87: which servers are told about a document. *)
From Coq Require Import String.
From Verif Require Import Base Selector SelectorSpec.
Local Open Scope N_scope.

Lemma text_eqb_iff a : forall b, text_eqb a b = true <-> a = b.
Proof.
  induction a as [|x a IH]; intros [|y b]; cbn [text_eqb]; try (split; [discriminate|discriminate]); [tauto|].
  rewrite andb_true_iff, IH. split; [intros [E ->]; f_equal; lia|]. intros E. injection E as -> ->. split; [lia|reflexivity].
Qed.
Lemma glob_star_star xs : glob [DoubleStar; Star] xs = true <-> xs <> [].
Proof.
  split; [intros H ->; discriminate H|]. intros N. induction xs as [|x xs IH]; [congruence|].
  destruct xs as [|y xs]; [reflexivity|]. specialize (IH ltac:(discriminate)). cbn [glob] in *. rewrite IH. apply orb_true_r.
Qed.
Lemma glob_root root : forall xs, glob (map Name root ++ [DoubleStar; Star]) xs = true <-> exists n rest, xs = root ++ n :: rest.
Proof.
  induction root as [|r root IH]; intros xs; cbn [map app].
  - rewrite glob_star_star. split; [destruct xs as [|x xs]; [congruence|eauto]|]. intros (n & rest & ->). discriminate.
  - destruct xs as [|x xs].
    + cbn [glob]. split; [discriminate|]. intros (n & rest & E). discriminate E.
    + cbn [glob]. rewrite andb_true_iff, text_eqb_iff, IH. split.
      * intros [-> (n & rest & ->)]. eauto.
      * intros (n & rest & E). injection E as -> ->. eauto.
Qed.
(** A server is told about the Move files in its folder and about nothing else. *)
Theorem C87_told_iff : forall servers d root, In root (told servers d) <-> In root servers /\ move_file d /\ inside_of d root.
Proof.
  intros servers d root. unfold told. rewrite filter_In. unfold selects, selector. cbn [fl_scheme fl_language fl_pattern].
  rewrite !andb_true_iff, glob_root, !text_eqb_iff. unfold move_file, inside_of. intuition congruence.
Qed.

(** ** One server for each document *)
Lemma below_iff root : forall xs, below root xs = true <-> exists rest, xs = root ++ rest.
Proof.
  induction root as [|r root IH]; intros xs; cbn [below app]; [split; eauto|]. destruct xs as [|x xs].
  - split; [discriminate|]. intros [rest E]. discriminate E.
  - rewrite andb_true_iff, text_eqb_iff, IH. split; [intros [-> [rest ->]]; eauto|]. intros [rest E]. injection E as -> ->. eauto.
Qed.
Lemma prefixes_of (a b c d : list text) : a ++ b = c ++ d -> (exists z, c = a ++ z) \/ (exists z, a = c ++ z).
Proof.
  revert c. induction a as [|x a IH]; intros c E; [left; exists c; reflexivity|]. destruct c as [|y c]; [right; exists (x :: a); reflexivity|].
  cbn [app] in E. injection E as -> E. destruct (IH c E) as [[z ->]|[z ->]]; [left|right]; exists z; reflexivity.
Qed.
Lemma innermost_spec folders xs : match innermost folders xs with
  | Some f => In f folders /\ (exists rest, xs = f ++ rest) /\ forall g rest, In g folders -> xs = g ++ rest -> (length g <= length f)%nat
  | None => forall g rest, In g folders -> xs <> g ++ rest
  end.
Proof.
  unfold innermost. set (step := fun (best : option (list text)) f => _).
  assert (G : forall seen best fs,
    (match best with
     | Some f => In f seen /\ (exists rest, xs = f ++ rest) /\ forall g rest, In g seen -> xs = g ++ rest -> (length g <= length f)%nat
     | None => forall g rest, In g seen -> xs <> g ++ rest end) ->
    match fold_left step fs best with
    | Some f => In f (seen ++ fs) /\ (exists rest, xs = f ++ rest) /\ forall g rest, In g (seen ++ fs) -> xs = g ++ rest -> (length g <= length f)%nat
    | None => forall g rest, In g (seen ++ fs) -> xs <> g ++ rest end).
  { intros seen best fs. revert seen best. induction fs as [|f fs IH]; intros seen best H; cbn [fold_left]; [rewrite app_nil_r; exact H|].
    change (f :: fs) with ([f] ++ fs). rewrite app_assoc. apply IH. unfold step. destruct (below f xs) eqn:B.
    - apply below_iff in B. destruct best as [b|].
      + destruct H as (I & P & M). destruct (length b <? length f)%nat eqn:L.
        * apply Nat.ltb_lt in L. split; [apply in_or_app; right; left; reflexivity|]. split; [exact B|]. intros g rest Hg E. apply in_app_or in Hg as [Hg|[<-|[]]]; [specialize (M g rest Hg E); lia|lia].
        * apply Nat.ltb_ge in L. split; [apply in_or_app; auto|]. split; [exact P|]. intros g rest Hg E. apply in_app_or in Hg as [Hg|[<-|[]]]; [exact (M g rest Hg E)|exact L].
      + split; [apply in_or_app; right; left; reflexivity|]. split; [exact B|]. intros g rest Hg E. apply in_app_or in Hg as [Hg|[<-|[]]]; [destruct (H g rest Hg E)|lia].
    - assert (Nf : forall rest, xs <> f ++ rest) by (intros rest E; assert (below f xs = true) by (apply below_iff; eauto); congruence).
      destruct best as [b|].
      + destruct H as (I & P & M). split; [apply in_or_app; auto|]. split; [exact P|]. intros g rest Hg E. apply in_app_or in Hg as [Hg|[<-|[]]]; [exact (M g rest Hg E)|destruct (Nf rest E)].
      + intros g rest Hg. apply in_app_or in Hg as [Hg|[<-|[]]]; [exact (H g rest Hg)|apply Nf]. }
  apply (G [] None folders). intros g rest [].
Qed.
(** The server of the innermost folder a Move file is in is told about it. *)
Theorem C87_own_server : forall folders d, move_file d -> (exists root, In root folders /\ inside_of d root) -> ~ In (doc_path d) folders ->
  exists root, innermost folders (doc_path d) = Some root /\ In root (told folders d).
Proof.
  intros folders d M (root & I & n & rest & E) N. pose proof (innermost_spec folders (doc_path d)) as H.
  destruct (innermost folders (doc_path d)) as [f|]; [|destruct (H root (n :: rest) I E)]. exists f. split; [reflexivity|].
  destruct H as (If & [r Er] & _). apply C87_told_iff. repeat split; [exact If|apply M|apply M|]. destruct r as [|y r]; [|exists y, r; exact Er].
  rewrite app_nil_r in Er. rewrite Er in N. contradiction.
Qed.
(** It is the only one if no folder is in another one. *)
Theorem C87_one_server_partial : forall folders d root, separate folders -> In root folders -> move_file d -> inside_of d root ->
  told folders d = [root] /\ innermost folders (doc_path d) = Some root.
Proof.
  intros folders d root [ND S] I M D.
  assert (U : forall g, In g folders -> (exists rest, doc_path d = g ++ rest) -> g = root).
  { intros g Ig [rest E]. destruct D as (n & r & E'). rewrite E in E'. destruct (prefixes_of _ _ _ _ E') as [[z Z]|[z Z]].
    - exact (S g root z Ig I Z).
    - symmetry. exact (S root g z I Ig Z). }
  split.
  - assert (T : forall g, In g (told folders d) <-> g = root).
    { intros g. rewrite C87_told_iff. split; [intros (Ig & _ & n & r & E); apply U; eauto|intros ->; auto]. }
    assert (N : NoDup (told folders d)) by (apply NoDup_filter; exact ND).
    destruct (told folders d) as [|a l]; [exfalso; apply (proj2 (T root) eq_refl)|]. assert (a = root) as -> by (apply T; left; reflexivity).
    destruct l as [|b l]; [reflexivity|]. assert (b = root) as -> by (apply T; right; left; reflexivity). inversion N as [|? ? X _]. destruct X. left. reflexivity.
  - pose proof (innermost_spec folders (doc_path d)) as H. destruct (innermost folders (doc_path d)) as [f|].
    + destruct H as (If & P & _). f_equal. apply U; assumption.
    + destruct D as (n & r & E). destruct (H root (n :: r) I E).
Qed.
(** In nested folders it is not. *)
Theorem C87_one_server_refuted : ~ forall folders d root, NoDup folders -> innermost folders (doc_path d) = Some root -> move_file d -> inside_of d root -> told folders d = [root].
Proof.
  intros X. specialize (X [[`"a"]; [`"a"; `"b"]] (Document (`"file") (`"move") [`"a"; `"b"; `"x.move"]) [`"a"; `"b"]).
  assert (E : told [[`"a"]; [`"a"; `"b"]] (Document (`"file") (`"move") [`"a"; `"b"; `"x.move"]) = [[`"a"; `"b"]]).
  { apply X.
    - constructor; [intros [E|[]]; discriminate E|]. constructor; [intros []|constructor].
    - reflexivity.
    - split; reflexivity.
    - exists (`"x.move"), []. reflexivity. }
  vm_compute in E. discriminate E.
Qed.

(** *** The theorems are not about nothing *)
Example two : list (list text) := [[`"home"; `"a"]; [`"home"; `"ab"]].
Example two_separate : separate two.
Proof.
  split; [constructor; [intros [E|[]]; discriminate E|constructor; [intros []|constructor]]|].
  intros f g rest [<-|[<-|[]]] [<-|[<-|[]]] E; try reflexivity; discriminate E.
Qed.
Example two_told : told two (Document (`"file") (`"move") [`"home"; `"ab"; `"src"; `"x.move"]) = [[`"home"; `"ab"]].
Proof. vm_compute. reflexivity. Qed.
(** the manifest starts a server but is not sent to it *)
Example manifest_not_told : told two (Document (`"file") (`"toml") [`"home"; `"a"; `"Dove.toml"]) = [].
Proof. vm_compute. reflexivity. Qed.
Print Assumptions C87_told_iff.
Print Assumptions C87_own_server.
Print Assumptions C87_one_server_partial.
Print Assumptions C87_one_server_refuted.
