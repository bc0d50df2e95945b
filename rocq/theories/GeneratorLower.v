(** Which grammars are accepted, and what each struct offers. *)
From Coq Require Import String.
From Verif Require Import Base BaseProofs Kinds KindsProofs Stdx Sink Ast Generator GeneratorSpec GeneratorProofs.
Open Scope N_scope.

Lemma token_field_inj t t' : ~ In 39 t -> ~ In 39 t' -> token_field t = token_field t' -> t = t'.
Proof.
  intros N N' H. unfold token_field in H.
  assert (J : forall x y, FToken x = FToken y -> x = y) by (intros x y X; injection X as X; exact X).
  apply J in H. clear J.
  destruct (mem t _), (mem t' _).
  - cbn [app] in H. injection H as H. apply app_inv_tail in H. exact H.
  - destruct N'. rewrite <- H. left; reflexivity.
  - destruct N. rewrite H. left; reflexivity.
  - exact H.
Qed.
Lemma map_fst_in {A B} (x : A) (G : list (A * B)) : In x (map fst G) -> exists y, In (x, y) G.
Proof. intros H. apply in_map_iff in H. destruct H as ([a b] & <- & H). eauto. Qed.

Section Lowering.
  Context (G : grammar) (PG : proper G).

  Lemma enum_not_struct n vs r : enum_of G n vs -> struct_of G n r -> False.
  Proof.
    intros (r' & H & C) [H' N].
    assert (r' = r) as ->; [|destruct (N _ C)].
    pose proof (p_once G PG) as D. revert D H H'. clear. induction G as [|[a b] G' IH]; cbn [map fst In]; [tauto|].
    intros D. inversion D as [|? ? D1 D2]; subst. intros [X|X] [Y|Y].
    - congruence.
    - injection X as -> ->. destruct D1. apply (in_map fst) in Y. exact Y.
    - injection Y as -> ->. destruct D1. apply (in_map fst) in X. exact X.
    - auto.
  Qed.
  Lemma variant_defined n vs v : enum_of G n vs -> In v vs -> In v (map fst G).
  Proof.
    intros (r & H & alts & -> & F & ->) Hv. eapply (p_nodes G PG); [exact H|].
    apply in_flat_map in Hv. destruct Hv as (x & Hx & Hv). rewrite Forall_forall in F.
    destruct (F x Hx) as [->|[m ->]]; [destruct Hv|]. destruct Hv as [<-|[]]. eapply ON_alt; [exact Hx|constructor].
  Qed.

  (** the fields of a struct before extraction *)
  Lemma field_types n r fs f : struct_of G n r -> lower_rule None r = Ok fs -> In f fs ->
    (exists t, f = qf t /\ mentions r (token_field t) /\ occurs_token r t /\ ~ In 39 t)
    \/ exists m ty b, f = FNode m ty b /\ mentions r f /\ In ty (map fst G) /\ identifier ty /\ identifier m.
  Proof.
    intros [H NC] E Hf. apply (lower_rule_fields _ _ _ E) in Hf. destruct (mentions_change qf token_field _ _ _ Hf) as [(m & ty & b & -> & M)|(t & -> & M & O)].
    - right. exists m, ty, b. split; [reflexivity|]. split; [exact M|].
      destruct (mentions_names _ _ _ _ M m ty b eq_refl) as [O N]; [unfold token_field; intros t X; discriminate X|].
      pose proof (p_nodes G PG _ _ _ H O) as D. destruct (map_fst_in _ _ D) as [r' D'].
      pose proof (p_names G PG _ _ D') as I. split; [exact D|]. split; [exact I|].
      destruct N as [->|[->|[X|L]]]; [apply identifier_snake; exact I|apply identifier_plural; exact I|discriminate X|].
      exact (p_labels G PG _ _ _ H L).
    - left. exists t. split; [reflexivity|]. split; [exact M|]. split; [exact O|]. exact (p_tokens G PG _ _ _ H O).
  Qed.

  Lemma typed_in_spec f vs : typed_in f vs -> (exists t, f = FToken t /\ In (`"SyntaxToken") vs) \/ exists n ty b, f = FNode n ty b /\ In ty vs.
  Proof.
    intros (ty & E & H). destruct f as [t|n ty' b]; cbn [field_ty] in E; apply format_ident_eq in E; subst ty; [left|right]; eauto.
  Qed.

  Lemma token_not_variant n vs t : enum_of G n vs -> ~ typed_in (FToken t) vs.
  Proof.
    intros E H. apply typed_in_spec in H. destruct H as [(? & _ & H)|(? & ? & ? & X & _)]; [|discriminate X].
    apply (proj1 (p_special G PG)). eapply variant_defined; eassumption.
  Qed.

  Section Done.
    Context (a : gast) (Ha : lower G = Ok a).

    Lemma lower_parts : exists nodes enums,
      lower_nodes G = Ok (nodes, enums)
      /\ Forall2 (fun X Y => lower_node enums X = Ok Y) nodes (ga_nodes a)
      /\ Forall2 (fun e e' => extract_enum_traits (ga_nodes a) e = Ok e') enums (ga_enums a).
    Proof.
      unfold lower in Ha. destruct (lower_nodes G) as [[nodes enums]| |] eqn:E; try discriminate Ha. cbn [bind] in Ha.
      destruct (map_res (lower_node enums) nodes) as [nodes'| |] eqn:En; try discriminate Ha. cbn [bind] in Ha.
      destruct (map_res (extract_enum_traits nodes') enums) as [enums'| |] eqn:Ee; try discriminate Ha. cbn [bind] in Ha.
      injection Ha as <-. exists nodes, enums. cbn [ga_nodes ga_enums].
      split; [reflexivity|]. split; apply map_res_Forall2; assumption.
    Qed.
    Lemma enum_traits_same e e' nodes : extract_enum_traits nodes e = Ok e' ->
      ge_name e' = ge_name e /\ ge_variants e' = ge_variants e.
    Proof.
      unfold extract_enum_traits. destruct (text_eqb _ _); [intros X; injection X as <-; auto|].
      destruct (map_res _ _) as [[|n rest]| |]; try discriminate; cbn [bind]; intros X; injection X as <-; auto.
    Qed.
    Lemma find_node_spec nodes v X : find_node nodes v = Some X -> In X nodes /\ gn_name X = v.
    Proof. intros H. apply find_some in H. destruct H as [H E]. apply text_eqb_eq in E. auto. Qed.
    Lemma find_node_ex nodes X : In X nodes -> exists Y, find_node nodes (gn_name X) = Some Y.
    Proof.
      intros H. unfold find_node. destruct (find _ nodes) eqn:E; [eauto|].
      apply (find_none _ _ E) in H. rewrite text_eqb_refl in H. discriminate.
    Qed.
    Lemma lower_node_same enums X Y : lower_node enums X = Ok Y -> gn_name Y = gn_name X.
    Proof.
      unfold lower_node. destruct (extract_enums _ _) as [fs| |]; try discriminate. cbn [bind]. intros E.
      apply extract_struct_traits_spec in E. apply E.
    Qed.

    Lemma variants_are_structs n vs v : enum_of G n vs -> In v vs -> exists r, struct_of G v r.
    Proof.
      intros He Hv. destruct lower_parts as (nodes & enums & El & Fn & Fe).
      destruct (lower_nodes_spec _ _ _ El) as (S1 & S2 & _ & _).
      assert (Ie : In (GE n [] vs) enums) by (apply S2; split; [reflexivity|exact He]).
      destruct (Forall2_in_l _ _ _ _ Fe Ie) as (e' & _ & E). unfold extract_enum_traits in E. cbn [ge_name ge_variants] in E.
      destruct (text_eqb n (`"Stmt")) eqn:Es.
      { apply text_eqb_eq in Es. subst n. destruct (proj2 (p_special G PG)). destruct He as (r & H & _). apply (in_map fst) in H. exact H. }
      destruct (map_res _ vs) as [found| |] eqn:Em; try discriminate E.
      destruct (proj1 (map_res_ok _ _) (ex_intro _ _ Em) v Hv) as [X EX].
      destruct (find_node (ga_nodes a) v) as [Y|] eqn:EY; [|discriminate EX].
      apply find_node_spec in EY. destruct EY as [IY NY].
      destruct (Forall2_in_r _ _ _ _ Fn IY) as (Z & IZ & EZ). apply lower_node_same in EZ.
      apply S1 in IZ. destruct IZ as (_ & r & S & _). exists r. congruence.
    Qed.
    Lemma no_enum_variant nodes enums : lower_nodes G = Ok (nodes, enums) ->
      forall e e', In e' enums -> In e enums -> ~ In (ge_name e') (ge_variants e).
    Proof.
      intros El e e' H' H Hv. destruct (lower_nodes_spec _ _ _ El) as (_ & S2 & _ & _).
      apply S2 in H, H'. destruct (variants_are_structs _ _ _ (proj2 H) Hv) as [r S].
      exact (enum_not_struct _ _ _ (proj2 H') S).
    Qed.

    (** what [lower] makes of the struct *)
    Lemma struct_made X : In X (ga_nodes a) -> exists r fs enums fs1,
      struct_of G (gn_name X) r /\ lower_rule None r = Ok fs
      /\ (forall e, In e enums <-> ge_traits e = [] /\ enum_of G (ge_name e) (ge_variants e))
      /\ (forall e e', In e' enums -> In e enums -> ~ In (ge_name e') (ge_variants e))
      /\ extract_enums enums (dedup [] fs) = Ok fs1
      /\ extract_struct_traits owner_traits (GN (gn_name X) [] fs1) = Ok X.
    Proof.
      intros HX. destruct lower_parts as (nodes & enums & El & Fn & Fe).
      pose proof (no_enum_variant _ _ El) as NV.
      destruct (lower_nodes_spec _ _ _ El) as (S1 & S2 & _ & _).
      destruct (Forall2_in_r _ _ _ _ Fn HX) as (Z & IZ & EZ). pose proof (lower_node_same _ _ _ EZ) as EN.
      apply S1 in IZ. destruct IZ as (T & r & S & L). unfold lower_node in EZ. rewrite T in EZ.
      destruct (extract_enums enums (dedup [] (gn_fields Z))) as [fs1| |] eqn:E1; try discriminate EZ. cbn [bind] in EZ.
      exists r, (gn_fields Z), enums, fs1. rewrite EN. auto 10.
    Qed.
    Lemma struct_exists n r : struct_of G n r -> exists X, In X (ga_nodes a) /\ gn_name X = n.
    Proof.
      intros S. destruct lower_parts as (nodes & enums & El & Fn & Fe).
      destruct (lower_nodes_spec _ _ _ El) as (S1 & S2 & _ & _).
      assert (L : lawful false r) by (eapply lower_nodes_ok; eauto).
      destruct (proj2 (lower_rule_ok r None) L) as [fs Er].
      assert (I : In (GN n [] fs) nodes) by (apply S1; cbn; split; [reflexivity|]; exists r; auto).
      destruct (Forall2_in_l _ _ _ _ Fn I) as (Y & IY & EY). exists Y. split; [exact IY|].
      apply lower_node_same in EY. exact EY.
    Qed.

    Lemma lowered_tokens_nameable : forall n r t, struct_of G n r -> mentions r (token_field t) -> ~ In 39 t -> nameable t.
    Proof.
      intros n r t S M Q. destruct (struct_exists _ _ S) as (X & IX & <-).
      destruct (struct_made X IX) as (r' & fs & enums & fs1 & S' & L & HE & NV & E1 & E2).
      assert (r' = r) as ->.
      { destruct S as [S _], S' as [S' _]. pose proof (p_once G PG) as D. revert D S S'. clear.
        generalize (gn_name X). intros n. induction G as [|[c b] G' IH]; cbn [map fst In]; [tauto|].
        intros D. inversion D as [|? ? D1 D2]; subst. intros [A|A] [B|B].
        - congruence.
        - injection A as -> ->. destruct D1. apply (in_map fst) in B. exact B.
        - injection B as -> ->. destruct D1. apply (in_map fst) in A. exact A.
        - auto. }
      destruct (mentions_change token_field qf _ _ _ M) as [(? & ? & ? & Y & _)|(t' & Et & M' & O)]; [discriminate Y|].
      assert (Q' : ~ In 39 t') by (eapply (p_tokens G PG); [apply S|exact O]).
      assert (t' = t) as -> by (symmetry; apply token_field_inj; assumption).
      apply (lower_rule_fields _ _ _ L) in M'.
      assert (I1 : In (qf t) (dedup [] fs)) by (apply dedup_in; right; exact M').
      destruct (proj1 (extract_enums_spec enums _ _ NV E1) _ I1) as [I2|(e & Ie & T & _)].
      - apply extract_struct_traits_spec in E2. destruct E2 as (_ & _ & _ & _ & E5).
        apply method_token; [exact Q|]. apply E5; [discriminate|exact I2].
      - apply HE in Ie. destruct (token_not_variant _ _ _ (proj2 Ie) T).
    Qed.

    Lemma fields_mentions n r fs : struct_of G n r -> lower_rule None r = Ok fs -> forall f, In f fs <-> mentions r f.
    Proof.
      intros S L f. split.
      - intros Hf. destruct (field_types _ _ _ _ S L Hf) as [(t & -> & M & O & Q)|(m & ty & b & _ & M & _)]; [|exact M].
        rewrite nameable_field; [exact M|]. eapply lowered_tokens_nameable; eassumption.
      - intros M. apply (lower_rule_fields _ _ _ L). destruct (mentions_change token_field qf _ _ _ M) as [(? & ? & ? & _ & M')|(t & -> & M' & O)]; [exact M'|].
        rewrite <- nameable_field; [exact M'|]. eapply lowered_tokens_nameable; [exact S|exact M|].
        eapply (p_tokens G PG); [apply S|exact O].
    Qed.

    Lemma same_rule n r r' : struct_of G n r -> struct_of G n r' -> r = r'.
    Proof.
      intros [S _] [S' _]. pose proof (p_once G PG) as D. revert D S S'. clear.
      induction G as [|[c b] G' IH]; cbn [map fst In]; [tauto|].
      intros D. inversion D as [|? ? D1 D2]; subst. intros [A|A] [B|B].
      - congruence.
      - injection A as -> ->. destruct D1. apply (in_map fst) in B. exact B.
      - injection B as -> ->. destruct D1. apply (in_map fst) in A. exact A.
      - auto.
    Qed.

    Lemma lowered_fields X r : In X (ga_nodes a) -> struct_of G (gn_name X) r ->
      (forall f, mentions r f -> exists f', stands_for G f f' /\ (In f' (gn_fields X) \/ dropped X f'))
      /\ (forall f, In f (gn_fields X) -> mentions r f
            \/ exists E vs, enum_of G E vs /\ f = FNode (to_lower_snake_case E) E false
               /\ (vs = [] \/ exists n ty b, mentions r (FNode n ty b) /\ In ty vs)).
    Proof.
      intros IX S. destruct (struct_made X IX) as (r' & fs & enums & fs1 & S' & L & HE & NV & E1 & E2).
      rewrite (same_rule _ _ _ S' S) in L. clear r' S'.
      destruct (extract_enums_spec enums _ _ NV E1) as [A1 A2].
      apply extract_struct_traits_spec in E2. destruct E2 as (_ & _ & B3 & B4 & _). cbn [gn_fields gn_traits] in *.
      assert (K : forall f, In f fs1 -> In f (gn_fields X) \/ dropped X f).
      { intros f Hf. destruct (B4 f Hf) as [H|(t & ms & m & H)]; [left; exact H|right]. exists t, ms, m. exact H. }
      split.
      - intros f M. apply (fields_mentions _ _ _ S L) in M.
        assert (I1 : In f (dedup [] fs)) by (apply dedup_in; right; exact M).
        destruct (A1 f I1) as [H|(e & Ie & T & H)].
        + exists f. split; [left; reflexivity|]. apply K; exact H.
        + exists (ef e). split; [|apply K; exact H]. apply HE in Ie. right. pose proof (typed_in_spec _ _ T) as [(t & -> & _)|(n & ty & b & -> & V)].
          * destruct (token_not_variant _ _ _ (proj2 Ie) T).
          * exists n, ty, b, (ge_name e), (ge_variants e). split; [reflexivity|]. split; [apply Ie|]. split; [exact V|reflexivity].
      - intros f Hf. apply B3 in Hf. destruct (A2 f Hf) as [H|(e & Ie & -> & V)].
        + left. apply dedup_in in H. destruct H as [[]|H]. apply (fields_mentions _ _ _ S L). exact H.
        + right. apply HE in Ie. exists (ge_name e), (ge_variants e). split; [apply Ie|]. split; [reflexivity|].
          destruct V as [V|(f0 & H0 & T)]; [left; exact V|right].
          apply dedup_in in H0. destruct H0 as [[]|H0]. apply (fields_mentions _ _ _ S L) in H0.
          destruct (typed_in_spec _ _ T) as [(t & -> & _)|(n & ty & b & -> & V)]; [destruct (token_not_variant _ _ _ (proj2 Ie) T)|].
          eauto.
    Qed.
  End Done.

  Lemma lower_acceptable : (exists a, lower G = Ok a) <-> acceptable G.
  Proof.
    split.
    - intros [a Ha]. constructor.
      + apply lower_nodes_ok. destruct (lower_parts a Ha) as (nodes & enums & El & _). eauto.
      + exact (lowered_tokens_nameable a Ha).
      + exact (variants_are_structs a Ha).
    - intros [A1 A2 A3]. apply lower_nodes_ok in A1. destruct A1 as [[nodes enums] El]. unfold lower. rewrite El. cbn [bind].
      destruct (lower_nodes_spec _ _ _ El) as (S1 & S2 & _ & _).
      assert (NV : forall e e', In e' enums -> In e enums -> ~ In (ge_name e') (ge_variants e)).
      { intros e e' H' H Hv. apply S2 in H, H'. destruct (A3 _ _ _ (proj2 H) Hv) as [r S].
        exact (enum_not_struct _ _ _ (proj2 H') S). }
      destruct (proj2 (map_res_ok (lower_node enums) nodes)) as [nodes' En].
      { intros X IX. apply S1 in IX. destruct IX as (T & r & S & L). unfold lower_node.
        destruct (extract_enums_ok enums (dedup [] (gn_fields X))) as [fs1 E1].
        - intros e He. apply S2 in He. destruct He as (_ & r' & He & _). eapply (p_names G PG); exact He.
        - intros f Hf. apply dedup_in in Hf. destruct Hf as [[]|Hf].
          destruct (field_types _ _ _ _ S L Hf) as [(t & -> & _)|(m & ty & b & -> & _ & _ & I & _)]; cbn [field_ty qf].
          + exists (`"SyntaxToken"). reflexivity.
          + apply format_ident_ok; exact I.
        - rewrite E1. cbn [bind]. apply extract_struct_traits_ok. cbn [gn_fields]. intros f Hf.
          destruct (proj2 (extract_enums_spec enums _ _ NV E1) _ Hf) as [H|(e & Ie & -> & _)].
          + apply dedup_in in H. destruct H as [[]|H].
            destruct (field_types _ _ _ _ S L H) as [(t & -> & M & O & Q)|(m & ty & b & -> & _ & _ & _ & I)].
            * apply method_token; [exact Q|]. eapply A2; eassumption.
            * apply method_node; exact I.
          + apply method_node. apply identifier_snake. apply S2 in Ie. destruct Ie as (_ & r' & He & _).
            eapply (p_names G PG); exact He. }
      rewrite En. cbn [bind].
      destruct (proj2 (map_res_ok (extract_enum_traits nodes') enums)) as [enums' Ee].
      { intros e He. apply S2 in He. unfold extract_enum_traits. destruct (text_eqb _ _); [eauto|].
        destruct (proj2 (map_res_ok (fun v => unwrap (find_node nodes' v)) (ge_variants e))) as [found Ef].
        - intros v Hv. destruct (A3 _ _ _ (proj2 He) Hv) as [r S].
          destruct (proj2 (lower_rule_ok r None)) as [fs Er]; [eapply lower_nodes_ok; eauto|].
          assert (I : In (GN v [] fs) nodes) by (apply S1; cbn; split; [reflexivity|]; exists r; auto).
          destruct (Forall2_in_l _ _ _ _ (map_res_Forall2 _ _ _ En) I) as (Y & IY & EY).
          apply lower_node_same in EY. cbn [gn_name] in EY. destruct (find_node_ex _ _ IY) as [Z EZ].
          rewrite EY in EZ. rewrite EZ. cbn [unwrap]. eauto.
        - rewrite Ef. cbn [bind]. destruct found; eauto. }
      rewrite Ee. cbn [bind]. eauto.
  Qed.
End Lowering.
