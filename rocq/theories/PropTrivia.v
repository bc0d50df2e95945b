(** Property C53: where blanks and comments go in the tree. *)
From Coq Require Import String.
From Verif Require Import Base BaseProofs Kinds KindsProofs LexSpec Lexer Parser Grammar Sink TreeSpec GreenSpec
  ParserLogic SinkProofs ParseProofs Ast PropAst.
Local Open Scope N_scope.

(** In every node below the root, blanks and comments stand between its
    children only, and its text starts with a token. *)
Theorem C53_trivia_between_children : forall t g errs c k cs,
  tlen t < u32_bound -> parse_text t = Ok (g, errs) ->
  In c (gchildren g) -> inside (GNode k cs) c -> tight cs.
Proof.
  intros t g errs c k cs Hs H Hc Hin. pose proof (parse_cases t Hs) as P. rewrite H in P. destruct P as (f & ws & P).
  exact (ro_tight _ _ _ _ _ P c Hc k cs Hin).
Qed.

(** A node with no empty node inside also ends with a token. *)
Inductive ends_solid : green -> Prop :=
| es_tok k w : is_trivia k = false -> ends_solid (GTok k w)
| es_node k cs x : ends_solid x -> ends_solid (GNode k (cs ++ [x])).
Lemma ends_solid_last g : ends_solid g -> exists l p, gleaves g = l ++ [p] /\ is_trivia (fst p) = false.
Proof.
  induction 1 as [k w H|k cs x _ (l & p & E & H)]; [exists [], (k, w); auto|].
  exists (flat_map gleaves cs ++ l), p. split; [|exact H]. cbn [gleaves]. rewrite flat_map_app. cbn [flat_map]. rewrite app_nil_r, E, app_assoc. reflexivity.
Qed.
Fixpoint gsize (g : green) : nat := match g with GNode _ cs => S (list_sum (map gsize cs)) | GTok _ _ => 1%nat end.
Theorem C53_text_starts_and_ends_with_a_token : forall t g errs c k cs,
  tlen t < u32_bound -> parse_text t = Ok (g, errs) ->
  In c (gchildren g) -> inside (GNode k cs) c ->
  (forall k', ~ inside (GNode k' []) (GNode k cs)) ->
  exists first last mid, (gleaves (GNode k cs) = [first] /\ last = first \/ gleaves (GNode k cs) = first :: mid ++ [last]) /\
    is_trivia (fst first) = false /\ is_trivia (fst last) = false.
Proof.
  intros t g errs c k cs Hs H Hc Hin Hne.
  assert (T : forall k' cs', inside (GNode k' cs') (GNode k cs) -> tight cs').
  { intros k' cs' Hi. apply (C53_trivia_between_children t g errs c k' cs' Hs H Hc).
    clear -Hi Hin. induction Hin as [|k0 cs0 c0 I J IH]; [exact Hi|]. eapply inside_child; [exact I|exact IH]. }
  assert (E : ends_solid (GNode k cs)).
  { clear -T Hne. remember (gsize (GNode k cs)) as n eqn:En. revert k cs En T Hne.
    induction n as [n IH] using lt_wf_ind. intros k cs En T Hne.
    destruct cs as [|x cs] using rev_ind; [exfalso; apply (Hne k); constructor|]. clear IHcs.
    constructor. destruct x as [k' ds|k' w].
    - apply (IH (gsize (GNode k' ds))); [|reflexivity| |].
      + subst n. cbn [gsize]. rewrite map_app, list_sum_app. cbn. lia.
      + intros k2 c2 Hi. apply (T k2 c2). eapply inside_child; [apply in_or_app; right; left; reflexivity|exact Hi].
      + intros k2 Hi. apply (Hne k2). eapply inside_child; [apply in_or_app; right; left; reflexivity|exact Hi].
    - constructor. destruct (T k (cs ++ [GTok k' w]) (inside_here _)) as (_ & L & _). exact (L _ _ eq_refl). }
  destruct (ends_solid_last _ E) as (l & p & El & Hp).
  destruct (T k cs (inside_here _)) as (_ & _ & F). cbn [gleaves] in El |- *.
  destruct l as [|q l].
  - exists p, p, []. split; [left; auto|]. auto.
  - exists q, p, l. split; [right; exact El|]. split; [|exact Hp]. rewrite El in F. exact (F q _ eq_refl).
Qed.

(** The condition is needed: a node with an empty node at its end can end
    with a blank. *)
Definition bound_file : text := `"module M { struct S<T: > {} }".
Theorem C53_no_node_ends_with_a_blank_refuted : exists t g c b,
  parse_text t = Ok (g, []) /\ In c (gchildren g) /\ inside b c /\ gkind b = TYPE_PARAM /\ gtext b = `"T: ".
Proof.
  exists bound_file. destruct (parse_text bound_file) as [[g errs]|w|] eqn:E; [|exfalso; vm_compute in E; discriminate E..].
  assert (X : match gchildren g with
    | [c] => match find_kind TYPE_PARAM c with Some b => errs = [] /\ gkind b = TYPE_PARAM /\ gtext b = `"T: " | None => False end
    | _ => False end).
  { vm_compute in E. injection E as <- <-. vm_compute. repeat split. }
  destruct (gchildren g) as [|c [|]] eqn:C; try contradiction. destruct (find_kind TYPE_PARAM c) as [b|] eqn:F; [|contradiction].
  destruct X as (-> & X1 & X2). exists g, c, b. rewrite C. split; [reflexivity|]. split; [left; reflexivity|].
  split; [exact (find_kind_inside _ _ _ F)|]. auto.
Qed.

(** A file with blanks and comments at the edges of nodes. *)
Definition edges_file : text := `"// c" ++ [cLF] ++ `"module M { // d" ++ [cLF] ++ `" struct S {} } ".
Example edges_sample : match parse_text edges_file with
  | Ok (g, []) => match find_kind STRUCT g with Some b => gtext b = `"struct S {}" | None => False end
  | _ => False end.
Proof. vm_compute. reflexivity. Qed.

Print Assumptions C53_trivia_between_children.
Print Assumptions C53_text_starts_and_ends_with_a_token.
Print Assumptions C53_no_node_ends_with_a_blank_refuted.
