(** A test for the side conditions on grammars, and comparisons with the written code. *)
From Coq Require Import String.
From Verif Require Import Base BaseProofs Kinds KindsProofs Stdx Sink Ast Generator GeneratorSpec GeneratorProofs GeneratorLower GeneratorTrees.
Open Scope N_scope.

Fixpoint nodes_of (r : rule) : list text :=
  match r with
  | NodeR n => [n] | TokenR _ => [] | Labeled _ r | OptR r | RepR r => nodes_of r
  | SeqR rs | AltR rs => flat_map nodes_of rs
  end.
Fixpoint tokens_of (r : rule) : list text :=
  match r with
  | TokenR t => [t] | NodeR _ => [] | Labeled _ r | OptR r | RepR r => tokens_of r
  | SeqR rs | AltR rs => flat_map tokens_of rs
  end.
Fixpoint labels_of (r : rule) : list text :=
  match r with
  | TokenR _ | NodeR _ => [] | Labeled l r => l :: labels_of r | OptR r | RepR r => labels_of r
  | SeqR rs | AltR rs => flat_map labels_of rs
  end.
Lemma nodes_of_spec r n : occurs_node r n -> In n (nodes_of r).
Proof. induction 1; cbn [nodes_of]; auto; try (left; reflexivity); apply in_flat_map; eauto. Qed.
Lemma tokens_of_spec r n : occurs_token r n -> In n (tokens_of r).
Proof. induction 1; cbn [tokens_of]; auto; try (left; reflexivity); apply in_flat_map; eauto. Qed.
Lemma labels_of_spec r n : occurs_label r n -> In n (labels_of r).
Proof. induction 1; cbn [labels_of]; auto; try (left; reflexivity); try (right; assumption); apply in_flat_map; eauto. Qed.
Fixpoint distinct (l : list text) : bool := match l with [] => true | x :: r => negb (mem x r) && distinct r end.
Lemma distinct_spec l : distinct l = true -> NoDup l.
Proof.
  induction l as [|x l IH]; cbn [distinct]; [constructor|]. intros H. apply andb_true_iff in H. destruct H as [H1 H2].
  constructor; [|auto]. apply mem_false. destruct (mem x l); [discriminate H1|reflexivity].
Qed.
Definition proper_b (G : grammar) : bool :=
  distinct (map fst G)
  && forallb (fun p => is_ident (fst p) && forallb (fun m => mem m (map fst G)) (nodes_of (snd p))
                       && forallb is_ident (labels_of (snd p))
                       && forallb (fun t => negb (existsb (N.eqb 39) t)) (tokens_of (snd p))) G
  && negb (mem (`"SyntaxToken") (map fst G)) && negb (mem (`"Stmt") (map fst G)).
Lemma proper_b_spec G : proper_b G = true -> proper G.
Proof.
  unfold proper_b. intros H. apply andb_true_iff in H. destruct H as [H H4]. apply andb_true_iff in H. destruct H as [H H3].
  apply andb_true_iff in H. destruct H as [H1 H2]. rewrite forallb_forall in H2.
  assert (K : forall n r, In (n, r) G -> is_ident n = true /\ (forall m, In m (nodes_of r) -> In m (map fst G))
            /\ (forall m, In m (labels_of r) -> is_ident m = true) /\ (forall t, In t (tokens_of r) -> ~ In 39 t)).
  { intros n r I. specialize (H2 _ I). cbn [fst snd] in H2.
    apply andb_true_iff in H2. destruct H2 as [H2 K4]. apply andb_true_iff in H2. destruct H2 as [H2 K3].
    apply andb_true_iff in H2. destruct H2 as [K1 K2]. rewrite forallb_forall in K2, K3, K4.
    split; [exact K1|]. split; [intros m Hm; apply mem_In; auto|]. split; [auto|].
    intros t Ht X. specialize (K4 t Ht). assert (existsb (N.eqb 39) t = true) by (apply existsb_exists; exists 39; auto).
    rewrite H in K4. discriminate K4. }
  constructor.
  - apply distinct_spec; exact H1.
  - intros n r I. apply is_ident_spec. exact (proj1 (K n r I)).
  - intros n r m I O. apply (K n r I). apply nodes_of_spec; exact O.
  - intros n r l I O. apply is_ident_spec. apply (K n r I). apply labels_of_spec; exact O.
  - intros n r t I O. apply (K n r I). apply tokens_of_spec; exact O.
  - split; apply mem_false; [destruct (mem _ _); [discriminate H3|reflexivity]|destruct (mem (`"Stmt") _); [discriminate H4|reflexivity]].
Qed.

(** ** Kinds by name *)
Definition kind_of_name (n : text) : option kind := find (fun k => text_eqb (kind_name k) n) all_kinds.
Lemma kind_of_name_ok k : kind_of_name (kind_name k) = Some k.
Proof. destruct k; vm_compute; reflexivity. Qed.
Lemma kind_name_eqb k k' : text_eqb (kind_name k) (kind_name k') = kind_eqb k k'.
Proof.
  destruct (text_eqb _ _) eqn:E.
  - apply text_eqb_eq in E. pose proof (kind_of_name_ok k) as A. rewrite E, kind_of_name_ok in A. injection A as ->.
    symmetry. apply N.eqb_refl.
  - apply text_eqb_neq in E. destruct (kind_eqb k k') eqn:F; [|reflexivity]. apply kind_eqb_eq in F. congruence.
Qed.
Lemma alookup_map {V W} (h : V -> W) (m : list (text * V)) t :
  alookup text_eqb t (map (fun p => (fst p, h (snd p))) m) = option_map h (alookup text_eqb t m).
Proof. induction m as [|[k v] m IH]; [reflexivity|]. cbn [map fst snd alookup]. destruct (text_eqb k t); [reflexivity|exact IH]. Qed.

(** ** Accessors *)
Definition opt {A} (o : option A) : list A := match o with Some x => [x] | None => [] end.
Lemma child_find {N} (cast : green -> option N) (syn : N -> green) (P : green -> bool) :
  (forall g, option_map syn (cast g) = if P g then Some g else None) ->
  forall g, opt (option_map syn (child cast g)) = opt (find P (node_children g)).
Proof.
  intros H g. unfold child. induction (node_children g) as [|x l IH]; [reflexivity|]. cbn [find_map find].
  specialize (H x). destruct (P x), (cast x); try discriminate H; cbn [option_map] in *; [congruence|exact IH].
Qed.
Lemma children_filter {N} (cast : green -> option N) (syn : N -> green) (P : green -> bool) :
  (forall g, option_map syn (cast g) = if P g then Some g else None) ->
  forall g, map syn (children cast g) = filter P (node_children g).
Proof.
  intros H g. unfold children. induction (node_children g) as [|x l IH]; [reflexivity|]. cbn [filter_map filter].
  specialize (H x). destruct (P x), (cast x); try discriminate H; cbn [option_map map] in *; [congruence|exact IH].
Qed.
Lemma token_find g k :
  opt (token g k) = opt (find (fun c => negb (is_node c) && text_eqb (kind_name (gkind c)) (kind_name k)) (gchildren g)).
Proof.
  unfold token. induction (gchildren g) as [|x l IH]; [reflexivity|]. cbn [find_map find]. rewrite kind_name_eqb.
  destruct (is_node x); cbn [negb andb]; [exact IH|]. destruct (kind_eqb (gkind x) k); [reflexivity|exact IH].
Qed.
