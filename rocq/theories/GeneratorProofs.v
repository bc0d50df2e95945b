(** Proofs about the generator of the typed tree. *)
From Coq Require Import String.
From Verif Require Import Base BaseProofs Kinds KindsProofs Lexer Stdx StdxSpec StdxProofs Sink Ast Generator GeneratorSpec.
Open Scope N_scope.

Lemma rule_ind_all (P : rule -> Prop)
  (HL : forall l r, P r -> P (Labeled l r)) (HN : forall n, P (NodeR n)) (HT : forall t, P (TokenR t))
  (HS : forall rs, Forall P rs -> P (SeqR rs)) (HA : forall rs, Forall P rs -> P (AltR rs))
  (HO : forall r, P r -> P (OptR r)) (HR : forall r, P r -> P (RepR r)) : forall r, P r.
Proof.
  fix IH 1. intros [l r|n|t|rs|rs|r|r].
  - apply HL, IH.
  - apply HN.
  - apply HT.
  - apply HS. induction rs as [|x rs IHrs]; constructor; [apply IH|exact IHrs].
  - apply HA. induction rs as [|x rs IHrs]; constructor; [apply IH|exact IHrs].
  - apply HO, IH.
  - apply HR, IH.
Qed.

Lemma rule_eqb_eq : forall a b, rule_eqb a b = true <-> a = b.
Proof.
  assert (HL : forall rs, Forall (fun a => forall b, rule_eqb a b = true <-> a = b) rs ->
    forall rs', (fix all (l l' : list rule) : bool :=
         match l, l' with
         | [], [] => true
         | x :: l, y :: l' => rule_eqb x y && all l l'
         | _, _ => false
         end) rs rs' = true <-> rs = rs').
  { induction 1 as [|x rs Hx H IH]; intros [|y rs']; try (split; [intros X; discriminate X|intros X; discriminate X]).
    - split; reflexivity.
    - rewrite andb_true_iff, Hx, IH. split; [intros [-> ->]; reflexivity|intros X; injection X as -> ->; auto]. }
  induction a as [l r IH|n|t|rs IH|rs IH|r IH|r IH] using rule_ind_all; intros b; destruct b as [l' r'|n'|t'|rs'|rs'|r'|r'];
    try (split; [intros X; discriminate X|intros X; discriminate X]); cbn [rule_eqb].
  - rewrite andb_true_iff, text_eqb_eq, IH. split; [intros [-> ->]; reflexivity|intros X; injection X as -> ->; auto].
  - rewrite text_eqb_eq. split; [intros ->; reflexivity|intros X; injection X as ->; auto].
  - rewrite text_eqb_eq. split; [intros ->; reflexivity|intros X; injection X as ->; auto].
  - rewrite (HL _ IH). split; [intros ->; reflexivity|intros X; injection X as ->; auto].
  - rewrite (HL _ IH). split; [intros ->; reflexivity|intros X; injection X as ->; auto].
  - rewrite IH. split; [intros ->; reflexivity|intros X; injection X as ->; auto].
  - rewrite IH. split; [intros ->; reflexivity|intros X; injection X as ->; auto].
Qed.

Lemma comma_list_some r n : comma_list r = Some n <-> exists rs, r = SeqR rs /\ list_of n rs.
Proof.
  split.
  - unfold comma_list.
    destruct r as [| | |rs| | |]; try discriminate.
    destruct rs as [|x rs]; [discriminate|]. destruct x as [|m| | | | |]; try discriminate.
    destruct rs as [|x rs]; [discriminate|]. destruct x as [| | | | | |rp]; try discriminate.
    destruct rp as [| | |rr| | |]; try discriminate.
    destruct rr as [|c rr]; [discriminate|]. destruct rr as [|x rr]; [discriminate|].
    destruct x as [|k| | | | |]; try discriminate. destruct rr; [|discriminate].
    destruct rs as [|x rs]; [discriminate|]. destruct x as [| | | | |o|]; try discriminate.
    destruct rs; [|discriminate].
    destruct (rule_eqb c o) eqn:E; [|discriminate]. destruct (text_eqb k m) eqn:E2; [|discriminate].
    intros X; injection X as ->. apply rule_eqb_eq in E. apply text_eqb_eq in E2. subst.
    eexists; split; [reflexivity|]. exists o. reflexivity.
  - intros (rs & -> & c & ->). cbn [comma_list].
    assert (X : rule_eqb c c = true) by (apply rule_eqb_eq; reflexivity). rewrite X, text_eqb_refl. reflexivity.
Qed.
Lemma comma_list_none rs : comma_list (SeqR rs) = None <-> forall n, ~ list_of n rs.
Proof.
  split.
  - intros E n H. assert (X : comma_list (SeqR rs) = Some n) by (apply comma_list_some; eauto). congruence.
  - intros H. destruct (comma_list (SeqR rs)) eqn:E; [|reflexivity].
    apply comma_list_some in E. destruct E as (rs' & X & L). injection X as <-. destruct (H _ L).
Qed.
Lemma list_of_fun n m rs : list_of n rs -> list_of m rs -> n = m.
Proof. intros (c & ->) (d & X). injection X as ? ?; subst; auto. Qed.

Lemma push_all_ok {A B} (f : A -> res (list B)) l :
  (exists y, push_all f l = Ok y) <-> forall x, In x l -> exists y, f x = Ok y.
Proof.
  induction l as [|a l IH]; cbn [push_all].
  - split; [intros _ x []|intros _; eauto].
  - split.
    + intros [y E] x [<-|Hx].
      * destruct (f a) eqn:Ea; [eauto|discriminate E|discriminate E].
      * destruct (f a) eqn:Ea; try discriminate E. cbn [bind] in E. destruct (push_all f l) eqn:El; try discriminate E.
        apply (proj1 IH); eauto.
    + intros H. destruct (H a (or_introl eq_refl)) as [y Ey]. rewrite Ey. cbn [bind].
      destruct (proj2 IH) as [z Ez]; [intros x Hx; apply H; right; exact Hx|]. rewrite Ez. cbn [bind]. eauto.
Qed.
Lemma push_all_in {A B} (f : A -> res (list B)) l y z :
  push_all f l = Ok y -> (In z y <-> exists x v, In x l /\ f x = Ok v /\ In z v).
Proof.
  revert y. induction l as [|a l IH]; cbn [push_all]; intros y E.
  - injection E as <-. split; [intros []|intros (x & v & [] & _)].
  - destruct (f a) as [v| |] eqn:Ea; try discriminate E. cbn [bind] in E.
    destruct (push_all f l) as [w| |] eqn:El; try discriminate E. cbn [bind] in E. injection E as <-.
    rewrite in_app_iff, (IH w eq_refl). split.
    + intros [H|(x & v' & Hx & Ex & Hv)]; [exists a, v; repeat split; auto; left; reflexivity|exists x, v'; repeat split; auto; right; exact Hx].
    + intros (x & v' & [<-|Hx] & Ex & Hv); [left; congruence|right; eauto].
Qed.

Definition labelled (l : option text) : bool := match l with Some _ => true | None => false end.

Lemma lower_rule_ok : forall r l, (exists fs, lower_rule l r = Ok fs) <-> lawful (labelled l) r.
Proof.
  induction r as [l0 r IH|n|t|rs IH|rs IH|r IH|r IH] using rule_ind_all; intros l.
  - cbn [lower_rule comma_list]. destruct l as [l|]; cbn [labelled assert_ bind].
    + split; [intros [? X]; discriminate X|intros H; inversion H].
    + rewrite IH. cbn [labelled]. split; [intros H; constructor; exact H|intros H; inversion H; subst; assumption].
  - cbn [lower_rule comma_list]. split; [constructor|eauto].
  - cbn [lower_rule comma_list]. destruct l as [l|]; cbn [labelled assert_ bind].
    + split; [intros [? X]; discriminate X|intros H; inversion H].
    + split; [constructor|eauto].
  - assert (U : lower_rule l (SeqR rs) = match comma_list (SeqR rs) with
        | Some ty => Ok [FNode (or_label l (pluralize (to_lower_snake_case ty))) ty true]
        | None => push_all (lower_rule l) rs end) by reflexivity.
    rewrite U. destruct (comma_list (SeqR rs)) as [n|] eqn:E.
    + apply comma_list_some in E. destruct E as (rs' & X & L). injection X as <-.
      split; [intros _; eapply L_list; exact L|eauto].
    + rewrite push_all_ok. rewrite Forall_forall in IH. split.
      * intros H. apply L_seq. intros r Hr. apply IH; auto.
      * intros H r Hr. apply IH; [exact Hr|]. inversion H as [| | |b n rs' L| |b rs' H'| |]; subst.
        -- destruct (proj1 (comma_list_none rs) E _ L).
        -- apply H'; exact Hr.
  - assert (U : lower_rule l (AltR rs) = push_all (lower_rule l) rs) by reflexivity.
    rewrite U, push_all_ok. rewrite Forall_forall in IH. split.
    + intros H. apply L_alt. intros r Hr. apply IH; auto.
    + intros H r Hr. apply IH; [exact Hr|]. inversion H as [| | | | | |b rs' H'|]; subst. apply H'; exact Hr.
  - assert (U : lower_rule l (OptR r) = lower_rule l r) by reflexivity. rewrite U, IH.
    split; [intros H; constructor; exact H|intros H; inversion H; subst; assumption].
  - cbn [lower_rule comma_list]. destruct r; try (split; [intros [? X]; discriminate X|intros H; inversion H]).
    split; [constructor|eauto].
Qed.

Definition qf (t : text) : field := FToken (quote_brackets t).
Lemma no_accessor_spec t : no_accessor t = true <-> literal_token t.
Proof.
  unfold no_accessor, literal_token. rewrite !orb_true_iff, !text_eqb_eq. cbn [In].
  split; [intros [[->| ->]| ->]; auto|intros [<-|[<-|[<-|[]]]]; auto].
Qed.

Lemma lower_rule_fields : forall r l fs, lower_rule l r = Ok fs -> forall f, In f fs <-> mentions_ qf l r f.
Proof.
  induction r as [l0 r IH|n|t|rs IH|rs IH|r IH|r IH] using rule_ind_all; intros l fs.
  - cbn [lower_rule comma_list]. destruct l as [l|]; cbn [assert_ bind]; [intros X; discriminate X|].
    intros E f. rewrite (IH _ _ E). split; [intros H; constructor; exact H|intros H; inversion H; subst; assumption].
  - cbn [lower_rule comma_list]. intros X f; injection X as <-. cbn [In].
    split; [intros [<-|[]]; constructor|intros H; inversion H; subst; left; reflexivity].
  - cbn [lower_rule comma_list]. destruct l as [l|]; cbn [assert_ bind]; [intros X; discriminate X|].
    intros X f; injection X as <-. destruct (no_accessor t) eqn:E.
    + apply no_accessor_spec in E. split; [intros []|intros H; inversion H; subst; contradiction].
    + split.
      * intros [<-|[]]. apply (M_token qf). intros H. apply no_accessor_spec in H. congruence.
      * intros H; inversion H; subst. left; reflexivity.
  - assert (U : lower_rule l (SeqR rs) = match comma_list (SeqR rs) with
        | Some ty => Ok [FNode (or_label l (pluralize (to_lower_snake_case ty))) ty true]
        | None => push_all (lower_rule l) rs end) by reflexivity.
    rewrite U. rewrite Forall_forall in IH. destruct (comma_list (SeqR rs)) as [n|] eqn:E.
    + apply comma_list_some in E. destruct E as (rs' & X & L). injection X as <-.
      intros X f; injection X as <-. split.
      * intros [<-|[]]. apply M_list; exact L.
      * intros H; inversion H as [| | |l' m rs' L'| |l' rs' r f' N Hr Hm| |]; subst.
        -- rewrite (list_of_fun _ _ _ L L'). left; reflexivity.
        -- destruct (N _ L).
    + intros P f. rewrite (push_all_in _ _ _ _ P). pose proof (proj1 (comma_list_none rs) E) as N. split.
      * intros (x & v & Hx & Ex & Hv). eapply M_seq; [exact N|exact Hx|]. eapply IH; eauto.
      * intros H; inversion H as [| | |l' m rs' L'| |l' rs' r f' N' Hr Hm| |]; subst; [destruct (N _ L')|].
        destruct (proj1 (push_all_ok _ _) (ex_intro _ _ P) r Hr) as [v Ev].
        exists r, v. split; [exact Hr|]. split; [exact Ev|]. eapply IH; eauto.
  - assert (U : lower_rule l (AltR rs) = push_all (lower_rule l) rs) by reflexivity. rewrite U.
    rewrite Forall_forall in IH. intros P f. rewrite (push_all_in _ _ _ _ P). split.
    + intros (x & v & Hx & Ex & Hv). eapply M_alt; [exact Hx|]. eapply IH; eauto.
    + intros H; inversion H as [| | | | | |l' rs' r f' Hr Hm|]; subst.
      destruct (proj1 (push_all_ok _ _) (ex_intro _ _ P) r Hr) as [v Ev].
      exists r, v. split; [exact Hr|]. split; [exact Ev|]. eapply IH; eauto.
  - assert (U : lower_rule l (OptR r) = lower_rule l r) by reflexivity. rewrite U. intros E f. rewrite (IH _ _ E).
    split; [intros H; constructor; exact H|intros H; inversion H; subst; assumption].
  - cbn [lower_rule comma_list]. destruct r; try (intros X; discriminate X).
    intros X f; injection X as <-. split; [intros [<-|[]]; constructor|intros H; inversion H; subst; left; reflexivity].
Qed.

Lemma mentions_change tf1 tf2 l r f : mentions_ tf1 l r f ->
  (exists n ty m, f = FNode n ty m /\ mentions_ tf2 l r f) \/ exists t, f = tf1 t /\ mentions_ tf2 l r (tf2 t) /\ occurs_token r t.
Proof.
  induction 1 as [l n|l t N|l n|l n rs L|l r f H IH|l rs r f N Hr H IH|l rs r f Hr H IH|l r f H IH].
  - left. do 3 eexists. split; [reflexivity|constructor].
  - right. exists t. split; [reflexivity|]. split; [constructor; exact N|constructor].
  - left. do 3 eexists. split; [reflexivity|constructor].
  - left. do 3 eexists. split; [reflexivity|constructor; exact L].
  - destruct IH as [(n & ty & m & -> & M)|(t & -> & M & O)]; [left; do 3 eexists; split; [reflexivity|constructor; exact M]|right].
    exists t. split; [reflexivity|]. split; constructor; assumption.
  - destruct IH as [(n & ty & m & -> & M)|(t & -> & M & O)]; [left; do 3 eexists; split; [reflexivity|eapply M_seq; eassumption]|right].
    exists t. split; [reflexivity|]. split; [eapply M_seq; eassumption|eapply OT_seq; eassumption].
  - destruct IH as [(n & ty & m & -> & M)|(t & -> & M & O)]; [left; do 3 eexists; split; [reflexivity|eapply M_alt; eassumption]|right].
    exists t. split; [reflexivity|]. split; [eapply M_alt; eassumption|eapply OT_alt; eassumption].
  - destruct IH as [(n & ty & m & -> & M)|(t & -> & M & O)]; [left; do 3 eexists; split; [reflexivity|constructor; exact M]|right].
    exists t. split; [reflexivity|]. split; constructor; assumption.
Qed.

(** ** Enums *)
Lemma enum_variants_spec alts : forall vs, enum_variants alts = Some vs <->
  Forall (fun x => x = TokenR (`";") \/ exists n, x = NodeR n) alts
  /\ vs = flat_map (fun x => match x with NodeR n => [n] | _ => [] end) alts.
Proof.
  induction alts as [|x alts IH]; intros vs; cbn [enum_variants].
  - split; [intros X; injection X as <-; auto|intros [_ ->]; reflexivity].
  - destruct x as [l r|n|t|rs|rs|r|r];
      try (split; [intros X; discriminate X|intros [H _]; inversion H as [|? ? [X|[? X]]]; discriminate X]).
    + split.
      * intros E. destruct (enum_variants alts) as [w|]; [|discriminate E]. injection E as <-.
        destruct (proj1 (IH w) eq_refl) as [A ->]. split; [constructor; eauto|reflexivity].
      * intros [H ->]. inversion H as [|? ? _ H']; subst.
        rewrite (proj2 (IH _) (conj H' eq_refl)). reflexivity.
    + destruct (text_eqb t (`";")) eqn:E.
      * apply text_eqb_eq in E. subst t. rewrite IH. cbn [flat_map app]. split.
        -- intros [A ->]. split; [constructor; auto|reflexivity].
        -- intros [A ->]. inversion A; subst. auto.
      * apply text_eqb_neq in E. split; [intros X; discriminate X|].
        intros [H _]. inversion H as [|? ? [X|[? X]]]; [injection X as X; contradiction|discriminate X].
Qed.
Lemma lower_enum_some r vs : lower_enum r = Some vs <-> is_choice r vs.
Proof.
  split.
  - unfold lower_enum. destruct r as [| | | |alts| |]; try discriminate. intros E.
    apply enum_variants_spec in E. exists alts. tauto.
  - intros (alts & -> & H). apply enum_variants_spec. exact H.
Qed.
Lemma lower_enum_none r : lower_enum r = None <-> forall vs, ~ is_choice r vs.
Proof.
  split.
  - intros E vs H. apply lower_enum_some in H. congruence.
  - intros H. destruct (lower_enum r) eqn:E; [|reflexivity]. apply lower_enum_some in E. destruct (H _ E).
Qed.

(** ** The loop over the definitions *)
Lemma lower_nodes_ok G : (exists p, lower_nodes G = Ok p) <-> forall n r, struct_of G n r -> lawful false r.
Proof.
  induction G as [|[n r] G IH]; cbn [lower_nodes].
  - split; [intros _ n r [[] _]|eauto].
  - assert (W : forall n' r', struct_of ((n, r) :: G) n' r' <-> (n' = n /\ r' = r /\ forall vs, ~ is_choice r vs) \/ struct_of G n' r').
    { intros n' r'. unfold struct_of. cbn [In]. split.
      - intros [[X|H] N]; [injection X as -> ->; left; auto|right; auto].
      - intros [(-> & -> & N)|[H N]]; split; auto. }
    destruct (lower_enum r) as [vs|] eqn:E.
    + apply lower_enum_some in E. split.
      * intros [p Ep] n' r' H. apply W in H. destruct H as [(_ & _ & N)|H]; [destruct (N _ E)|].
        destruct (lower_nodes G) as [[a b]| |]; try discriminate Ep. eapply IH; eauto.
      * intros H. destruct (proj2 IH) as [[a b] Ep]; [intros n' r' H'; eapply H, W; right; exact H'|].
        rewrite Ep. cbn [bind]. eauto.
    + pose proof (proj1 (lower_enum_none r) E) as N. split.
      * intros [p Ep] n' r' H. apply W in H. destruct (lower_rule None r) as [fs| |] eqn:Er; try discriminate Ep.
        cbn [bind] in Ep. destruct H as [(-> & -> & _)|H].
        -- apply (lower_rule_ok r None). eauto.
        -- destruct (lower_nodes G) as [[a b]| |]; try discriminate Ep. eapply IH; eauto.
      * intros H. destruct (proj2 (lower_rule_ok r None)) as [fs Er]; [eapply H, W; left; auto|].
        rewrite Er. cbn [bind]. destruct (proj2 IH) as [[a b] Ep]; [intros n' r' H'; eapply H, W; right; exact H'|].
        rewrite Ep. cbn [bind]. eauto.
Qed.
Definition is_enum (p : text * rule) : bool := match lower_enum (snd p) with Some _ => true | None => false end.
Definition is_struct (p : text * rule) : bool := negb (is_enum p).
Lemma lower_nodes_spec G nodes enums : lower_nodes G = Ok (nodes, enums) ->
  (forall X, In X nodes <-> gn_traits X = [] /\ exists r, struct_of G (gn_name X) r /\ lower_rule None r = Ok (gn_fields X))
  /\ (forall e, In e enums <-> ge_traits e = [] /\ enum_of G (ge_name e) (ge_variants e))
  /\ map gn_name nodes = map fst (filter is_struct G) /\ map ge_name enums = map fst (filter is_enum G).
Proof.
  revert nodes enums. induction G as [|[n r] G IH]; cbn [lower_nodes]; intros nodes enums E.
  - injection E as <- <-. split; [|split; [|split]].
    + intros X. split; [intros []|intros (_ & r & [[] _] & _)].
    + intros e. split; [intros []|intros (_ & r & [] & _)].
    + reflexivity.
    + reflexivity.
  - destruct (lower_enum r) as [vs|] eqn:Ee.
    + destruct (lower_nodes G) as [[a b]| |] eqn:Eg; try discriminate E. cbn [bind] in E. injection E as <- <-.
      apply lower_enum_some in Ee. destruct (IH _ _ eq_refl) as (H1 & H2 & H3 & H4).
      split; [|split; [|split]].
      * intros X. rewrite H1. split; intros (T & r' & [S N] & L); (split; [exact T|]); exists r'.
        -- split; [split; [right; exact S|exact N]|exact L].
        -- split; [split; [|exact N]|exact L]. destruct S as [S|S]; [|exact S].
           injection S as _ ->. destruct (N _ Ee).
      * intros e. cbn [In]. rewrite H2. split.
        -- intros [<-|(T & r' & S & C)].
           ++ split; [reflexivity|]. exists r. split; [left; reflexivity|exact Ee].
           ++ split; [exact T|]. exists r'. split; [right; exact S|exact C].
        -- intros (T & r' & [S|S] & C).
           ++ left. injection S as -> ->. destruct e as [en et ev]; cbn in *. subst et.
              f_equal. apply lower_enum_some in C. apply lower_enum_some in Ee. congruence.
           ++ right. split; [exact T|]. exists r'. auto.
      * cbn [filter]. unfold is_struct at 1, is_enum at 1. cbn [snd]. rewrite (proj2 (lower_enum_some r vs) Ee). exact H3.
      * cbn [filter]. unfold is_enum at 1. cbn [snd]. rewrite (proj2 (lower_enum_some r vs) Ee). cbn [map fst ge_name]. rewrite H4. reflexivity.
    + destruct (lower_rule None r) as [fs| |] eqn:Er; try discriminate E. cbn [bind] in E.
      destruct (lower_nodes G) as [[a b]| |] eqn:Eg; try discriminate E. cbn [bind] in E. injection E as <- <-.
      pose proof (proj1 (lower_enum_none r) Ee) as Ne. destruct (IH _ _ eq_refl) as (H1 & H2 & H3 & H4).
      split; [|split; [|split]].
      * intros X. cbn [In]. rewrite H1. split.
        -- intros [<-|(T & r' & [S N] & L)].
           ++ split; [reflexivity|]. exists r. split; [split; [left; reflexivity|exact Ne]|exact Er].
           ++ split; [exact T|]. exists r'. split; [split; [right; exact S|exact N]|exact L].
        -- intros (T & r' & [[S|S] N] & L).
           ++ left. injection S as Sn <-. destruct X as [xn xt xf]; cbn in *. subst. f_equal. congruence.
           ++ right. split; [exact T|]. exists r'. split; [split; assumption|exact L].
      * intros e. rewrite H2. split; intros (T & r' & S & C); (split; [exact T|]); exists r'.
        -- split; [right; exact S|exact C].
        -- split; [|exact C]. destruct S as [S|S]; [|exact S]. injection S as _ <-. destruct (Ne _ C).
      * cbn [filter]. unfold is_struct at 1, is_enum at 1. cbn [snd]. rewrite Ee. cbn [negb map fst gn_name]. rewrite H3. reflexivity.
      * cbn [filter]. unfold is_enum at 1. cbn [snd]. rewrite Ee. exact H4.
Qed.

(** ** Duplicates *)
Lemma field_eqb_eq a b : field_eqb a b = true <-> a = b.
Proof.
  destruct a as [t|n ty m], b as [t'|n' ty' m']; cbn [field_eqb];
    try (split; [intros X; discriminate X|intros X; discriminate X]).
  - rewrite text_eqb_eq. split; [intros ->; reflexivity|intros X; injection X as ->; reflexivity].
  - rewrite !andb_true_iff, !text_eqb_eq, Bool.eqb_true_iff.
    split; [intros [[-> ->] ->]; reflexivity|intros X; injection X as -> -> ->; auto].
Qed.
Lemma existsb_field f l : existsb (field_eqb f) l = true <-> In f l.
Proof.
  rewrite existsb_exists. split.
  - intros (x & Hx & E). apply field_eqb_eq in E. subst. exact Hx.
  - intros H. exists f. split; [exact H|]. apply field_eqb_eq. reflexivity.
Qed.
Lemma dedup_in rest : forall kept f, In f (dedup kept rest) <-> In f kept \/ In f rest.
Proof.
  induction rest as [|x rest IH]; intros kept f; cbn [dedup In].
  - tauto.
  - destruct (existsb (field_eqb x) kept) eqn:E.
    + apply existsb_field in E. rewrite IH. split; [tauto|]. intros [H|[<-|H]]; auto.
    + rewrite IH, in_app_iff. cbn [In]. tauto.
Qed.
Lemma NoDup_snoc {A} (l : list A) x : NoDup l -> ~ In x l -> NoDup (l ++ [x]).
Proof.
  induction l as [|y l IH]; intros H N; cbn [app]; [constructor; [intros []|constructor]|].
  inversion H as [|? ? Hy Hl]; subst. constructor.
  - rewrite in_app_iff. cbn [In]. intros [X|[X|[]]]; [contradiction|]. subst. apply N. left; reflexivity.
  - apply IH; [exact Hl|]. intros X. apply N. right; exact X.
Qed.
Lemma dedup_NoDup rest : forall kept, NoDup kept -> NoDup (dedup kept rest).
Proof.
  induction rest as [|x rest IH]; intros kept H; cbn [dedup]; [exact H|].
  destruct (existsb (field_eqb x) kept) eqn:E; apply IH; [exact H|].
  apply NoDup_snoc; [exact H|]. intros X. apply existsb_field in X. congruence.
Qed.

(** ** Choosing fields *)
Lemma select_ok test fs : (exists p, select test fs = Ok p) <-> forall f, In f fs -> exists b, test f = Ok b.
Proof.
  induction fs as [|f fs IH]; cbn [select].
  - split; [intros _ f []|eauto].
  - split.
    + intros [p E] x [<-|Hx]; (destruct (test f) as [b| |]; try discriminate E); [eauto|].
      cbn [bind] in E. destruct (select test fs) as [[y n]| |]; try discriminate E. eapply IH; eauto.
    + intros H. destruct (H f (or_introl eq_refl)) as [b Eb]. rewrite Eb. cbn [bind].
      destruct (proj2 IH) as [[y n] Ep]; [intros x Hx; apply H; right; exact Hx|]. rewrite Ep. cbn [bind]. eauto.
Qed.
Lemma select_in test fs yes no : select test fs = Ok (yes, no) ->
  (forall f, In f yes <-> In f fs /\ test f = Ok true) /\ (forall f, In f no <-> In f fs /\ test f = Ok false).
Proof.
  revert yes no. induction fs as [|x fs IH]; cbn [select]; intros yes no E.
  - injection E as <- <-. split; intros f; cbn [In]; tauto.
  - destruct (test x) as [b| |] eqn:Ex; try discriminate E. cbn [bind] in E.
    destruct (select test fs) as [[y n]| |]; try discriminate E. cbn [bind] in E.
    destruct (IH _ _ eq_refl) as [A B]. destruct b; injection E as <- <-; split; intros f; cbn [In]; rewrite ?A, ?B.
    + split; [intros [<-|H]; tauto|tauto].
    + split; [tauto|]. intros [[<-|H] T]; [congruence|tauto].
    + split; [tauto|]. intros [[<-|H] T]; [congruence|tauto].
    + split; [intros [<-|H]; tauto|tauto].
Qed.
Lemma mem_In t l : mem t l = true <-> In t l.
Proof.
  unfold mem. rewrite existsb_exists. split.
  - intros (x & Hx & E). apply text_eqb_eq in E. subst. exact Hx.
  - intros H. exists t. split; [exact H|apply text_eqb_refl].
Qed.
Lemma mem_false t l : mem t l = false <-> ~ In t l.
Proof. rewrite <- mem_In. destruct (mem t l); split; congruence. Qed.

(** ** Names *)
Lemma letter_spec c : is_letter_ c = true <-> letter c.
Proof. unfold is_letter_, letter, is_ascii_uppercase, is_ascii_lowercase. lia. Qed.
Lemma digit_spec c : is_digit_ c = true <-> digit c.
Proof. unfold is_digit_, digit. lia. Qed.
Lemma is_ident_spec t : is_ident t = true <-> identifier t.
Proof.
  unfold identifier. destruct t as [|c r]; cbn [is_ident].
  - split; [intros X; discriminate X|intros (c & r & X & _); discriminate X].
  - rewrite andb_true_iff, letter_spec, forallb_forall. split.
    + intros [L H]. exists c, r. split; [reflexivity|]. split; [exact L|]. apply Forall_forall. intros x Hx.
      specialize (H x Hx). apply orb_true_iff in H. rewrite letter_spec, digit_spec in H. exact H.
    + intros (c' & r' & X & L & H). injection X as <- <-. split; [exact L|]. rewrite Forall_forall in H.
      intros x Hx. apply orb_true_iff. rewrite letter_spec, digit_spec. apply H; exact Hx.
Qed.
Lemma format_ident_ok t : (exists m, format_ident t = Ok m) <-> identifier t.
Proof.
  unfold format_ident. rewrite <- is_ident_spec. destruct (is_ident t); split; eauto; try congruence.
  intros [m X]; discriminate X.
Qed.
Lemma format_ident_eq t m : format_ident t = Ok m -> m = t.
Proof. unfold format_ident. destruct (is_ident t); congruence. Qed.
Definition idchar (c : char) : Prop := letter c \/ digit c.
Lemma identifier_app t u : identifier t -> Forall idchar u -> identifier (t ++ u).
Proof.
  intros (c & r & -> & L & H) U. exists c, (r ++ u). split; [reflexivity|]. split; [exact L|].
  apply Forall_app. split; assumption.
Qed.
Lemma identifier_chars t : identifier t -> Forall idchar t.
Proof. intros (c & r & -> & L & H). constructor; [left; exact L|exact H]. Qed.
Lemma lower_letter c : letter c -> letter (to_ascii_lowercase c).
Proof. unfold letter, to_ascii_lowercase, is_ascii_uppercase. destruct ((65 <=? c) && (c <=? 90)) eqn:E; lia. Qed.
Lemma lower_idchar c : idchar c -> idchar (to_ascii_lowercase c).
Proof. unfold idchar, letter, digit, to_ascii_lowercase, is_ascii_uppercase. destruct ((65 <=? c) && (c <=? 90)) eqn:E; lia. Qed.

Lemma split_idchars s : forall p, Forall idchar s -> Forall idchar (split_words p s).
Proof.
  induction s as [|c s IH]; intros p H; cbn [split_words]; [constructor|]. inversion H as [|? ? Hc Hs]; subst.
  apply Forall_app. split; [|apply IH; exact Hs].
  assert (U : idchar 95) by (left; right; right; reflexivity).
  destruct p as [p|]; [destruct (_ && _)|]; repeat (apply Forall_cons; [assumption|]); apply Forall_nil.
Qed.
Lemma identifier_snake n : identifier n -> identifier (to_lower_snake_case n).
Proof.
  intros (c & r & -> & L & H). unfold to_lower_snake_case. rewrite snake_spec.
  2:{ intros d. unfold to_ascii_lowercase, is_ascii_uppercase. destruct ((65 <=? d) && (d <=? 90)) eqn:E; lia. }
  cbn [split_words app map]. exists (to_ascii_lowercase c). eexists. split; [reflexivity|].
  split; [apply lower_letter; exact L|]. apply Forall_map. eapply Forall_impl; [|apply split_idchars; exact H].
  intros d. apply lower_idchar.
Qed.
Lemma identifier_plural n : identifier n -> identifier (to_lower_snake_case n ++ `"s").
Proof.
  intros H. apply identifier_app; [apply identifier_snake; exact H|]. constructor; [|constructor].
  left. right. left. cbn. lia.
Qed.
Lemma under_token_chars : Forall idchar (`"_token").
Proof. repeat (apply Forall_cons; [left; unfold letter; cbn; lia|]). apply Forall_nil. Qed.

Lemma trim_start_char_none c t : ~ In c t -> trim_start_char c t = t.
Proof. intros H. destruct t as [|x r]; [reflexivity|]. cbn [trim_start_char]. destruct (x =? c) eqn:E; [|reflexivity]. destruct H. left. lia. Qed.
Lemma trim_quoted t : ~ In 39 t -> trim_matches cQuote (quote_brackets t) = t.
Proof.
  intros H. unfold trim_matches, cQuote, quote_brackets. destruct (contains _ t).
  - unfold cQuote. cbn [trim_start_char]. change (39 =? 39) with true. cbn iota.
    destruct t as [|c r].
    + reflexivity.
    + cbn [app trim_start_char]. destruct (c =? 39) eqn:E; [destruct H; left; lia|].
      change (c :: r ++ [39]) with ((c :: r) ++ [39]). rewrite rev_app_distr. cbn [rev app trim_start_char].
      change (39 =? 39) with true. cbn iota. rewrite trim_start_char_none.
      * rewrite rev_app_distr. cbn [rev app]. rewrite rev_involutive. reflexivity.
      * rewrite in_app_iff, <- in_rev. cbn [In]. intros X. apply H. cbn [In]. tauto.
  - rewrite (trim_start_char_none _ t) by exact H. rewrite trim_start_char_none.
    + apply rev_involutive.
    + rewrite <- in_rev. exact H.
Qed.
Lemma contains_letter c r : letter c -> contains (`"[]{}()") (c :: r) = false.
Proof.
  intros L. unfold contains. change (`"[]{}()") with [91; 93; 123; 125; 40; 41]. unfold letter in L.
  cbn [find_str starts_with].
  repeat match goal with |- context [?a =? ?b] => destruct (a =? b) eqn:?; [exfalso; lia|cbn [andb]] end. reflexivity.
Qed.
Lemma quote_ident t : identifier t -> quote_brackets t = t.
Proof. intros (c & r & -> & L & _). unfold quote_brackets. rewrite contains_letter by exact L. reflexivity. Qed.

Definition puncts := ks_punct KINDS_SRC.
Definition spec_quote (t : text) : text := if mem t [`"("; `")"; `"{"; `"}"; `"["; `"]"] then [39] ++ t ++ [39] else t.
Lemma punct_quote : forall t, In t (map fst puncts) -> quote_brackets t = spec_quote t.
Proof.
  assert (H : forallb (fun t => text_eqb (quote_brackets t) (spec_quote t)) (map fst puncts) = true) by (vm_compute; reflexivity).
  intros t Ht. rewrite forallb_forall in H. apply text_eqb_eq, H, Ht.
Qed.
Lemma punct_method : forall t k, In (t, k) puncts -> is_ident (under_token (map to_ascii_lowercase k)) = true.
Proof.
  assert (H : forallb (fun p => is_ident (under_token (map to_ascii_lowercase (snd p)))) puncts = true) by (vm_compute; reflexivity).
  intros t k Ht. rewrite forallb_forall in H. apply (H _ Ht).
Qed.
Lemma nameable_field t : nameable t -> qf t = token_field t.
Proof.
  intros [H|H]; unfold qf, token_field; f_equal.
  - apply punct_quote; exact H.
  - rewrite quote_ident by exact H. destruct (mem t _) eqn:E; [|reflexivity]. apply mem_In in E.
    destruct H as (c & r & -> & L & _). unfold letter in L.
    repeat (destruct E as [E|E]; [injection E as E; subst; cbn in L; lia|]). destruct E.
Qed.
Lemma alookup_In {V} t (m : list (text * V)) v : alookup text_eqb t m = Some v -> In (t, v) m.
Proof.
  induction m as [|[k w] m IH]; cbn [alookup]; [discriminate|]. destruct (text_eqb k t) eqn:E.
  - intros X; injection X as ->. apply text_eqb_eq in E. subst. left; reflexivity.
  - intros X. right. apply IH; exact X.
Qed.
Lemma alookup_None {V} t (m : list (text * V)) : alookup text_eqb t m = None -> ~ In t (map fst m).
Proof.
  induction m as [|[k w] m IH]; cbn [alookup map fst In]; [tauto|]. destruct (text_eqb k t) eqn:E; [discriminate|].
  apply text_eqb_neq in E. intros X [Y|Y]; [contradiction|]. exact (IH X Y).
Qed.
Lemma method_token t : ~ In 39 t -> ((exists m, method_name (qf t) = Ok m) <-> nameable t).
Proof.
  intros N. unfold method_name, qf. rewrite trim_quoted by exact N. unfold nameable. fold puncts.
  destruct (alookup text_eqb t puncts) as [k|] eqn:E.
  - apply alookup_In in E. rewrite format_ident_ok. split.
    + intros _. left. apply (in_map fst) in E. exact E.
    + intros _. apply is_ident_spec. eapply punct_method; exact E.
  - apply alookup_None in E. rewrite format_ident_ok. split.
    + intros I. right. unfold quote_brackets in I. destruct (contains _ t) eqn:C.
      * destruct I as (c & r & X & L & _). cbn [app under_token] in X. unfold under_token in X. cbn [app] in X.
        injection X as X _. subst c. unfold letter, cQuote in L. lia.
      * destruct t as [|c r]; [discriminate C|]. destruct I as (c' & r' & X & L & F).
        unfold under_token in X. cbn [app] in X. injection X as X1 X2. subst c' r'. apply Forall_app in F.
        exists c, r. split; [reflexivity|]. split; [exact L|exact (proj1 F)].
    + intros [H|H]; [contradiction|]. rewrite quote_ident by exact H. apply identifier_app; [exact H|exact under_token_chars].
Qed.
Lemma method_node n ty b : identifier n -> exists m, method_name (FNode n ty b) = Ok m.
Proof.
  intros H. cbn [method_name]. destruct (text_eqb n (`"type")); apply format_ident_ok; [|exact H].
  apply is_ident_spec. reflexivity.
Qed.

Lemma map_res_ok {A B} (f : A -> res B) l :
  (exists y, map_res f l = Ok y) <-> forall x, In x l -> exists y, f x = Ok y.
Proof.
  induction l as [|a l IH]; cbn [map_res].
  - split; [intros _ x []|eauto].
  - split.
    + intros [y E] x [<-|Hx]; (destruct (f a) as [b| |] eqn:Ea; try discriminate E); [eauto|].
      cbn [bind] in E. destruct (map_res f l) eqn:El; try discriminate E. apply (proj1 IH); eauto.
    + intros H. destruct (H a (or_introl eq_refl)) as [y Ey]. rewrite Ey. cbn [bind].
      destruct (proj2 IH) as [z Ez]; [intros x Hx; apply H; right; exact Hx|]. rewrite Ez. cbn [bind]. eauto.
Qed.
Lemma map_res_Forall2 {A B} (f : A -> res B) l l' : map_res f l = Ok l' -> Forall2 (fun x y => f x = Ok y) l l'.
Proof.
  revert l'. induction l as [|a l IH]; cbn [map_res]; intros l' E.
  - injection E as <-. constructor.
  - destruct (f a) as [b| |] eqn:Ea; try discriminate E. cbn [bind] in E.
    destruct (map_res f l) as [m| |]; try discriminate E. cbn [bind] in E. injection E as <-.
    constructor; [exact Ea|apply IH; reflexivity].
Qed.
Lemma Forall2_in_r {A B} (R : A -> B -> Prop) l l' y : Forall2 R l l' -> In y l' -> exists x, In x l /\ R x y.
Proof. induction 1 as [|a b l l' H F IH]; intros []; [subst; exists a; split; [left|]; auto|]. destruct IH as (x & ? & ?); [assumption|]. exists x. split; [right|]; auto. Qed.
Lemma Forall2_in_l {A B} (R : A -> B -> Prop) l l' x : Forall2 R l l' -> In x l -> exists y, In y l' /\ R x y.
Proof. induction 1 as [|a b l l' H F IH]; intros []; [subst; exists b; split; [left|]; auto|]. destruct IH as (y & ? & ?); [assumption|]. exists y. split; [right|]; auto. Qed.

(** ** Extraction of enums *)
Definition ef (e : genum) : field := FNode (to_lower_snake_case (ge_name e)) (ge_name e) false.
Definition typed_in (f : field) (vs : list text) : Prop := exists ty, field_ty f = Ok ty /\ In ty vs.
Lemma extract_enum_spec fs e out : extract_enum fs e = Ok out ->
  (forall f, In f fs -> In f out \/ (typed_in f (ge_variants e) /\ In (ef e) out))
  /\ (forall f, In f out -> In f fs \/ (f = ef e /\ (ge_variants e = [] \/ exists f0, In f0 fs /\ typed_in f0 (ge_variants e)))).
Proof.
  unfold extract_enum. destruct (select _ fs) as [[yes no]| |] eqn:E; try discriminate. cbn [bind].
  destruct (select_in _ _ _ _ E) as [Y N].
  assert (S : forall f, In f fs -> exists b, (let! ty := field_ty f in Ok (mem ty (ge_variants e))) = Ok b) by (apply select_ok; eauto).
  assert (T : forall f, (let! ty := field_ty f in Ok (mem ty (ge_variants e))) = Ok true -> typed_in f (ge_variants e)).
  { intros f. destruct (field_ty f) as [ty| |] eqn:Ef; try discriminate. cbn [bind]. intros X; injection X as X.
    apply mem_In in X. exists ty. auto. }
  destruct (length yes =? length (ge_variants e))%nat eqn:L; intros X; injection X as <-.
  - fold (ef e). split.
    + intros f Hf. destruct (S f Hf) as [[|] Eb].
      * right. split; [apply T; exact Eb|]. apply in_app_iff. right. left. reflexivity.
      * left. apply in_app_iff. left. apply N. auto.
    + intros f Hf. apply in_app_iff in Hf. destruct Hf as [Hf|[<-|[]]]; [left; apply N; exact Hf|]. right.
      split; [reflexivity|]. destruct yes as [|f0 yes].
      * left. destruct (ge_variants e); [reflexivity|discriminate L].
      * right. exists f0. pose proof (proj1 (Y f0) (or_introl eq_refl)) as [H1 H2]. split; [exact H1|]. apply T; exact H2.
  - split; auto.
Qed.
Lemma typed_ef e vs : typed_in (ef e) vs -> In (ge_name e) vs.
Proof. intros (ty & E & H). cbn in E. apply format_ident_eq in E. subst. exact H. Qed.
Lemma extract_enums_spec enums : forall fs out,
  (forall e e', In e' enums -> In e enums -> ~ In (ge_name e') (ge_variants e)) ->
  extract_enums enums fs = Ok out ->
  (forall f, In f fs -> In f out \/ exists e, In e enums /\ typed_in f (ge_variants e) /\ In (ef e) out)
  /\ (forall f, In f out -> In f fs \/ exists e, In e enums /\ f = ef e
        /\ (ge_variants e = [] \/ exists f0, In f0 fs /\ typed_in f0 (ge_variants e))).
Proof.
  induction enums as [|e enums IH]; cbn [extract_enums]; intros fs out Hn E.
  - injection E as <-. split; auto.
  - destruct (extract_enum fs e) as [mid| |] eqn:Em; try discriminate E. cbn [bind] in E.
    apply extract_enum_spec in Em. destruct Em as [M1 M2].
    destruct (IH mid out) as [I1 I2]; [intros a b Ha Hb; apply Hn; right; assumption|exact E|]. split.
    + intros f Hf. destruct (M1 f Hf) as [H|[H1 H2]].
      * destruct (I1 f H) as [H'|(e' & He & T & O)]; [left; exact H'|right]. exists e'. split; [right; exact He|auto].
      * right. destruct (I1 _ H2) as [H'|(e' & He & T & O)].
        -- exists e. split; [left; reflexivity|auto].
        -- apply typed_ef in T. destruct (Hn e' e); [left; reflexivity|right; exact He|exact T].
    + intros f Hf. destruct (I2 f Hf) as [H|(e' & He & -> & V)].
      * destruct (M2 f H) as [H'|(-> & V)]; [left; exact H'|right]. exists e. split; [left; reflexivity|auto].
      * right. exists e'. split; [right; exact He|]. split; [reflexivity|]. destruct V as [V|(f0 & H0 & T)]; [left; exact V|].
        destruct (M2 f0 H0) as [H'|(-> & _)]; [right; eauto|].
        apply typed_ef in T. destruct (Hn e' e); [left; reflexivity|right; exact He|exact T].
Qed.
Lemma extract_enum_ok fs e : (forall f, In f fs -> exists ty, field_ty f = Ok ty) -> exists out, extract_enum fs e = Ok out.
Proof.
  intros H. unfold extract_enum.
  destruct (proj2 (select_ok (fun f => let! ty := field_ty f in Ok (mem ty (ge_variants e))) fs)) as [[y n] E].
  - intros f Hf. destruct (H f Hf) as [ty ->]. cbn [bind]. eauto.
  - rewrite E. cbn [bind]. destruct (_ =? _)%nat; eauto.
Qed.
Lemma extract_enums_ok enums : forall fs, (forall e, In e enums -> identifier (ge_name e)) ->
  (forall f, In f fs -> exists ty, field_ty f = Ok ty) -> exists out, extract_enums enums fs = Ok out.
Proof.
  induction enums as [|e enums IH]; cbn [extract_enums]; intros fs He Hf; [eauto|].
  destruct (extract_enum_ok fs e Hf) as [mid Em]. rewrite Em. cbn [bind]. apply IH; [intros x Hx; apply He; right; exact Hx|].
  apply extract_enum_spec in Em. destruct Em as [_ M]. intros f H. destruct (M f H) as [H'|[-> _]]; [apply Hf; exact H'|].
  cbn [field_ty ef]. apply format_ident_ok, He. left; reflexivity.
Qed.

(** ** Extraction of traits *)
Lemma extract_struct_trait_spec X t X' : extract_struct_trait X t = Ok X' ->
  gn_name X' = gn_name X
  /\ (forall u, In u (gn_traits X) -> In u (gn_traits X'))
  /\ (forall f, In f (gn_fields X') -> In f (gn_fields X))
  /\ (forall f, In f (gn_fields X) -> In f (gn_fields X')
        \/ (In (fst t) (gn_traits X') /\ exists m, method_name f = Ok m /\ In m (snd t)))
  /\ forall f, In f (gn_fields X) -> exists m, method_name f = Ok m.
Proof.
  unfold extract_struct_trait. destruct t as [tn ms]. destruct (select _ _) as [[yes no]| |] eqn:E; try discriminate.
  cbn [bind]. destruct (select_in _ _ _ _ E) as [Y N].
  assert (S : forall f, In f (gn_fields X) -> exists b, (let! m := method_name f in Ok (mem m ms)) = Ok b) by (apply select_ok; eauto).
  assert (M : forall f, In f (gn_fields X) -> exists m, method_name f = Ok m).
  { intros f Hf. destruct (S f Hf) as [b Eb]. destruct (method_name f); try discriminate Eb. eauto. }
  destruct (_ =? _)%nat; intros H; injection H as <-; cbn [gn_name gn_traits gn_fields fst snd].
  - split; [reflexivity|]. split; [intros u Hu; apply in_app_iff; auto|]. split; [intros f Hf; apply N; exact Hf|].
    split; [|exact M]. intros f Hf. destruct (S f Hf) as [[|] Eb].
    + right. split; [apply in_app_iff; right; left; reflexivity|].
      destruct (method_name f) as [m| |]; try discriminate Eb. cbn [bind] in Eb. injection Eb as Eb. apply mem_In in Eb. eauto.
    + left. apply N. auto.
  - split; [reflexivity|]. split; [auto|]. split; [auto|]. split; [auto|exact M].
Qed.
Lemma extract_struct_traits_spec ts : forall X X', extract_struct_traits ts X = Ok X' ->
  gn_name X' = gn_name X
  /\ (forall u, In u (gn_traits X) -> In u (gn_traits X'))
  /\ (forall f, In f (gn_fields X') -> In f (gn_fields X))
  /\ (forall f, In f (gn_fields X) -> In f (gn_fields X')
        \/ exists t ms m, In (t, ms) ts /\ In t (gn_traits X') /\ method_name f = Ok m /\ In m ms)
  /\ (ts <> [] -> forall f, In f (gn_fields X) -> exists m, method_name f = Ok m).
Proof.
  induction ts as [|t ts IH]; cbn [extract_struct_traits]; intros X X' E.
  - injection E as <-. repeat split; auto. congruence.
  - destruct (extract_struct_trait X t) as [Y| |] eqn:Et; try discriminate E. cbn [bind] in E.
    apply extract_struct_trait_spec in Et. destruct Et as (A1 & A2 & A3 & A4 & A5).
    apply IH in E. destruct E as (B1 & B2 & B3 & B4 & B5).
    split; [congruence|]. split; [auto|]. split; [auto|]. split; [|auto].
    intros f Hf. destruct (A4 f Hf) as [H|(H1 & m & Em & Hm)].
    + destruct (B4 f H) as [H'|(u & ms & m & Hu & T & Em & Hm)]; [left; exact H'|right].
      exists u, ms, m. split; [right; exact Hu|auto].
    + right. exists (fst t), (snd t), m. split; [left; destruct t; reflexivity|]. split; [apply B2; exact H1|auto].
Qed.
Lemma extract_struct_traits_ok ts : forall X, (forall f, In f (gn_fields X) -> exists m, method_name f = Ok m) ->
  exists X', extract_struct_traits ts X = Ok X'.
Proof.
  induction ts as [|t ts IH]; cbn [extract_struct_traits]; intros X H; [eauto|].
  assert (E : exists Y, extract_struct_trait X t = Ok Y).
  { unfold extract_struct_trait. destruct t as [tn ms].
    destruct (proj2 (select_ok (fun f => let! m := method_name f in Ok (mem m ms)) (gn_fields X))) as [[y n] E].
    - intros f Hf. destruct (H f Hf) as [m ->]. cbn [bind]. eauto.
    - rewrite E. cbn [bind]. eauto. }
  destruct E as [Y E]. rewrite E. cbn [bind]. apply IH. apply extract_struct_trait_spec in E.
  intros f Hf. apply H. apply E. exact Hf.
Qed.

(** ** Which names a mentioned field carries *)
Lemma mentions_names tf l r f : mentions_ tf l r f -> forall n ty m, f = FNode n ty m -> (forall t, f <> tf t) ->
  occurs_node r ty /\ (n = to_lower_snake_case ty \/ n = to_lower_snake_case ty ++ `"s" \/ l = Some n \/ occurs_label r n).
Proof.
  intros H n0 ty0 m0. induction H as [l n|l t N|l n|l n rs L|l r f H IH|l rs r f N Hr H IH|l rs r f Hr H IH|l r f H IH]; intros E NT.
  - injection E as <- <- <-. split; [constructor|]. destruct l; cbn; auto.
  - destruct (NT t eq_refl).
  - injection E as <- <- <-. split; [constructor; constructor|]. destruct l; cbn; auto.
  - injection E as <- <- <-. split.
    + destruct L as (c & ->). eapply ON_seq; [left; reflexivity|constructor].
    + destruct l; cbn; auto.
  - destruct (IH E NT) as [A B]. split; [constructor; exact A|].
    destruct B as [B|[B|[B|B]]]; auto; [injection B as ->; right; right; right; constructor|right; right; right; constructor; exact B].
  - destruct (IH E NT) as [A B]. split; [eapply ON_seq; eassumption|].
    destruct B as [B|[B|[B|B]]]; auto. right; right; right; eapply OL_seq; eassumption.
  - destruct (IH E NT) as [A B]. split; [eapply ON_alt; eassumption|].
    destruct B as [B|[B|[B|B]]]; auto. right; right; right; eapply OL_alt; eassumption.
  - destruct (IH E NT) as [A B]. split; [constructor; exact A|].
    destruct B as [B|[B|[B|B]]]; auto. right; right; right; constructor; exact B.
Qed.
