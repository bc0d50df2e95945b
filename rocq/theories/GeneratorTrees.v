(** What the accessors return on trees that fit the grammar. *)
From Coq Require Import String.
From Verif Require Import Base BaseProofs Kinds KindsProofs Stdx Sink Ast Generator GeneratorSpec GeneratorProofs GeneratorLower.
Open Scope N_scope.

Lemma find_first {A} (P : A -> bool) l c : In c l -> P c = true ->
  exists before first after, find P l = Some first /\ l = before ++ first :: after /\ P first = true /\ (c = first \/ In c after).
Proof.
  induction l as [|x l IH]; intros H Hc; [destruct H|]. cbn [find]. destruct (P x) eqn:E.
  - exists [], x, l. split; [reflexivity|]. split; [reflexivity|]. split; [exact E|]. destruct H as [<-|H]; auto.
  - destruct H as [<-|H]; [congruence|]. destruct (IH H Hc) as (b & f & r & F & -> & Pf & D).
    exists (x :: b), f, r. auto.
Qed.
Lemma find_filter {A} (P Q : A -> bool) l : find P (filter Q l) = find (fun x => Q x && P x) l.
Proof.
  induction l as [|x l IH]; [reflexivity|]. cbn [filter find]. destruct (Q x); cbn [find andb]; [destruct (P x); [reflexivity|exact IH]|exact IH].
Qed.

Lemma gen_T_punct : forall t k, In (t, k) (ks_punct KINDS_SRC) -> gen_T KINDS_SRC (spec_quote t) = Some k.
Proof.
  assert (H : forallb (fun p => match gen_T KINDS_SRC (spec_quote (fst p)) with Some k => text_eqb k (snd p) | None => false end) (ks_punct KINDS_SRC) = true)
    by (vm_compute; reflexivity).
  intros t k Ht. rewrite forallb_forall in H. specialize (H _ Ht). cbn [fst snd] in H.
  destruct (gen_T _ _) as [k'|]; [|discriminate H]. apply text_eqb_eq in H. congruence.
Qed.
Lemma gen_T_keyword : forall t, In t (ks_keywords KINDS_SRC) -> gen_T KINDS_SRC (spec_quote t) = Some (kw_name t).
Proof.
  assert (H : forallb (fun t => match gen_T KINDS_SRC (spec_quote t) with Some k => text_eqb k (kw_name t) | None => false end) (ks_keywords KINDS_SRC) = true)
    by (vm_compute; reflexivity).
  intros t Ht. rewrite forallb_forall in H. specialize (H _ Ht).
  destruct (gen_T _ _) as [k'|]; [|discriminate H]. apply text_eqb_eq in H. congruence.
Qed.
Lemma token_field_text t : token_field t = FToken (spec_quote t).
Proof. reflexivity. Qed.
Lemma is_token_T t c : is_token t c -> ~ literal_token t -> gen_T KINDS_SRC (spec_quote t) = Some (kind_name (gkind c)).
Proof.
  intros [_ [H|[[H E]|[[-> E]|[H _]]]]] N.
  - apply gen_T_punct; exact H.
  - rewrite gen_T_keyword by exact H. unfold kw_name. rewrite E. reflexivity.
  - rewrite E. reflexivity.
  - contradiction.
Qed.

Section Trees.
  Context (G : grammar) (PG : proper G) (a : gast) (Ha : lower G = Ok a).

  Lemma choice_fun r vs vs' : is_choice r vs -> is_choice r vs' -> vs = vs'.
  Proof. intros H H'. apply lower_enum_some in H, H'. congruence. Qed.
  Lemma enum_fun n vs vs' : enum_of G n vs -> enum_of G n vs' -> vs = vs'.
  Proof.
    intros (r & H & C) (r' & H' & C'). assert (r = r') as <-; [|eapply choice_fun; eassumption].
    pose proof (p_once G PG) as D. revert D H H'. clear.
    induction G as [|[c b] G' IH]; cbn [map fst In]; [tauto|].
    intros D. inversion D as [|? ? D1 D2]; subst. intros [A|A] [B|B].
    - congruence.
    - injection A as -> ->. destruct D1. apply (in_map fst) in B. exact B.
    - injection B as -> ->. destruct D1. apply (in_map fst) in A. exact A.
    - auto.
  Qed.
  Lemma enums_made e : In e (ga_enums a) -> enum_of G (ge_name e) (ge_variants e).
  Proof.
    intros H. destruct (lower_parts G a Ha) as (nodes & enums & El & Fn & Fe).
    destruct (lower_nodes_spec _ _ _ El) as (S1 & S2 & _ & _).
    destruct (Forall2_in_r _ _ _ _ Fe H) as (e0 & H0 & E). apply enum_traits_same in E. destruct E as [-> ->].
    apply S2 in H0. apply H0.
  Qed.
  Lemma enum_exists n vs : enum_of G n vs -> exists e, In e (ga_enums a) /\ ge_name e = n.
  Proof.
    intros H. destruct (lower_parts G a Ha) as (nodes & enums & El & Fn & Fe).
    destruct (lower_nodes_spec _ _ _ El) as (S1 & S2 & _ & _).
    assert (I : In (GE n [] vs) enums) by (apply S2; auto).
    destruct (Forall2_in_l _ _ _ _ Fe I) as (e & He & E). apply enum_traits_same in E. exists e. split; [exact He|apply E].
  Qed.
  Lemma of_type_cast n c : of_type G n c <-> is_node c = true /\ can_cast a n c = true.
  Proof.
    unfold of_type, can_cast, cast_kinds. rewrite mem_In. split.
    - intros [Hn [(r & S & K)|(vs & v & E & V & K)]]; (split; [exact Hn|]).
      + destruct (struct_exists G a Ha n r S) as (X & IX & <-). destruct (find_node_ex _ _ IX) as [Y EY]. rewrite EY.
        left. symmetry; exact K.
      + destruct (find_node (ga_nodes a) n) as [X|] eqn:EX.
        { apply find_node_spec in EX. destruct EX as [IX <-]. destruct (struct_made G PG a Ha X IX) as (r & _ & _ & _ & S & _).
          destruct (enum_not_struct G PG _ _ _ E S). }
        destruct (enum_exists _ _ E) as (e & Ie & En).
        destruct (find _ (ga_enums a)) as [e'|] eqn:Ef.
        * apply find_some in Ef. destruct Ef as [Ie' En']. apply text_eqb_eq in En'.
          destruct (text_eqb n (`"Stmt")) eqn:Es.
          { apply text_eqb_eq in Es. subst n. destruct (proj2 (p_special G PG)). destruct E as (r & H & _). rewrite Es in H. apply (in_map fst) in H. exact H. }
          apply enums_made in Ie'. rewrite En' in Ie'. rewrite (enum_fun _ _ _ Ie' E). rewrite K. apply in_map. exact V.
        * apply (find_none _ _ Ef) in Ie. rewrite En, text_eqb_refl in Ie. discriminate.
    - intros [Hn H]. split; [exact Hn|]. destruct (find_node (ga_nodes a) n) as [X|] eqn:EX.
      + left. apply find_node_spec in EX. destruct EX as [IX <-]. destruct (struct_made G PG a Ha X IX) as (r & _ & _ & _ & S & _).
        exists r. split; [exact S|]. destruct H as [H|[]]. symmetry; exact H.
      + right. destruct (find _ (ga_enums a)) as [e|] eqn:Ef; [|destruct H].
        apply find_some in Ef. destruct Ef as [Ie En]. apply text_eqb_eq in En.
        destruct (text_eqb n (`"Stmt")); [destruct H|]. apply in_map_iff in H. destruct H as (v & K & V).
        exists (ge_variants e), v. rewrite <- En. split; [apply enums_made; exact Ie|]. split; [exact V|symmetry; exact K].
  Qed.

  Lemma wanted_found f g c : (forall t, f = token_field t -> ~ literal_token t) ->
    In c (gchildren g) -> wanted G f c ->
    accessor a f g <> [] /\ returned_or_hidden G (accessor a f g) f g c.
  Proof.
    intros NL Hc W. assert (K : forall P first l, find P (gchildren g) = Some first -> P c = true -> (forall x, P x = true -> wanted G f x) ->
      l = [first] -> l <> [] /\ returned_or_hidden G l f g c).
    { intros P first l F Pc PW ->. split; [discriminate|]. destruct (find_first P _ _ Hc Pc) as (before & first' & after & F' & E & P1 & D).
      rewrite F in F'. injection F' as <-. destruct D as [->|D]; [left; left; reflexivity|right].
      apply in_split in D. destruct D as (between & after' & ->). exists before, first, between, after'. auto. }
    destruct f as [w|n ty b].
    - destruct W as (t & Et & T). pose proof (NL t Et) as N. rewrite token_field_text in Et. injection Et as ->.
      pose proof (is_token_T _ _ T N) as ET. cbn [accessor]. rewrite ET.
      set (P := fun x => negb (is_node x) && text_eqb (kind_name (gkind x)) (kind_name (gkind c))).
      assert (Pc : P c = true) by (unfold P; rewrite (proj1 T), text_eqb_refl; reflexivity).
      destruct (find_first P _ _ Hc Pc) as (before & first & after & F & _). rewrite F.
      eapply (K P); [exact F|exact Pc| |reflexivity].
      intros x Px. exists t. split; [reflexivity|]. unfold P in Px. apply andb_true_iff in Px. destruct Px as [P1 P2].
      apply text_eqb_eq in P2. unfold is_token in *. rewrite P2. destruct (is_node x); [discriminate P1|]. split; [reflexivity|apply T].
    - cbn [wanted] in W. apply of_type_cast in W. destruct W as [W1 W2]. cbn [accessor]. destruct b.
      + assert (I : In c (filter (can_cast a ty) (node_children g))).
        { apply filter_In. split; [|exact W2]. apply filter_In. auto. }
        split; [intros X; rewrite X in I; destruct I|left; exact I].
      + unfold node_children. rewrite find_filter. set (P := fun x => is_node x && can_cast a ty x).
        assert (Pc : P c = true) by (unfold P; rewrite W1, W2; reflexivity).
        destruct (find_first P _ _ Hc Pc) as (before & first & after & F & _). rewrite F.
        eapply (K P); [exact F|exact Pc| |reflexivity].
        intros x Px. apply andb_true_iff in Px. cbn [wanted]. apply of_type_cast. exact Px.
  Qed.
  Lemma accessor_sound f g c : In c (accessor a f g) -> In c (gchildren g) /\
    match f with FNode _ ty _ => of_type G ty c | FToken _ => is_node c = false end.
  Proof.
    destruct f as [w|n ty b]; cbn [accessor].
    - destruct (gen_T _ _) as [k|]; [|intros []]. destruct (find _ _) as [x|] eqn:F; [|intros []].
      apply find_some in F. destruct F as [F1 F2]. intros [<-|[]]. split; [exact F1|].
      apply andb_true_iff in F2. destruct (is_node x); [destruct F2 as [F2 _]; discriminate F2|reflexivity].
    - destruct b.
      + intros H. apply filter_In in H. destruct H as [H1 H2]. apply filter_In in H1. destruct H1 as [H1 H3].
        split; [exact H1|]. apply of_type_cast. auto.
      + destruct (find _ _) as [x|] eqn:F; [|intros []]. apply find_some in F. destruct F as [F1 F2]. intros [<-|[]].
        apply filter_In in F1. split; [apply F1|]. apply of_type_cast. split; [apply F1|exact F2].
  Qed.

  (** ** Children of fitting trees *)
  Lemma fits_seq_in rs cs c : fits_seq G rs cs -> In c cs -> exists r cs', In r rs /\ fits G r cs' /\ In c cs'.
  Proof.
    revert cs. induction rs as [|r rs IH]; intros cs F H; inversion F as [|? ? x y Fx Fy]; subst; [destruct H|].
    apply in_app_iff in H. destruct H as [H|H]; [exists r, x; split; [left; reflexivity|auto]|].
    destruct (IH y Fy H) as (r' & cs' & I & F' & H'). exists r', cs'. split; [right; exact I|auto].
  Qed.
  Lemma fits_rep_in r cs c : fits G (RepR r) cs -> In c cs -> exists cs', fits G r cs' /\ In c cs'.
  Proof.
    intros F. remember (RepR r) as R eqn:ER. induction F as [| | | | | | | |r' x y F1 _ F2 IH]; try discriminate ER; intros H.
    - destruct H.
    - injection ER as ->. apply in_app_iff in H. destruct H as [H|H]; [eauto|apply IH; auto].
  Qed.
  Lemma children_named : forall r l cs c, lawful (labelled l) r -> fits G r cs -> In c cs ->
    passed_over G r c \/ exists f, mentions_ token_field l r f /\ wanted G f c.
  Proof.
    induction r as [l0 r IH|n|t|rs IH|rs IH|r IH|r IH] using rule_ind_all; intros l cs c L F H.
    - inversion F; subst. destruct l; [inversion L|]. inversion L; subst.
      destruct (IH (Some l0) cs c) as [P|(f & M & W)]; [assumption|assumption|assumption|left; constructor; exact P|right].
      exists f. split; [constructor; exact M|exact W].
    - inversion F; subst. destruct H as [<-|[]]. right. eexists. split; [constructor|]. cbn [wanted]. assumption.
    - inversion F; subst. destruct H as [<-|[]].
      assert (D : literal_token t \/ ~ literal_token t).
      { destruct (no_accessor t) eqn:E; [left; apply no_accessor_spec; exact E|right; intros X; apply no_accessor_spec in X; congruence]. }
      destruct D as [D|D]; [left; constructor; assumption|right].
      eexists. split; [apply M_token; exact D|]. exists t. split; [reflexivity|assumption].
    - rewrite Forall_forall in IH. inversion F as [| | |? ? FS| | | | |]; subst.
      destruct (comma_list (SeqR rs)) as [n|] eqn:E.
      + apply comma_list_some in E. destruct E as (rs' & X & LO). injection X as <-. pose proof LO as LO'. destruct LO as (s & ->).
        assert (N : of_type G n c \/ exists ds, fits G s ds /\ In c ds).
        { destruct (fits_seq_in _ _ _ FS H) as (r & ds & [<-|[<-|[<-|[]]]] & Fr & Hd).
          - inversion Fr; subst. destruct Hd as [<-|[]]. left; assumption.
          - destruct (fits_rep_in _ _ _ Fr Hd) as (es & Fe & He). inversion Fe as [| | |? ? FS'| | | | |]; subst.
            destruct (fits_seq_in _ _ _ FS' He) as (r & ws & [<-|[<-|[]]] & Fr' & Hw).
            + right; eauto.
            + inversion Fr'; subst. destruct Hw as [<-|[]]. left; assumption.
          - inversion Fr; subst; [destruct Hd|right; eauto]. }
        destruct N as [N|(ds & Fd & Hd)].
        * right. eexists. split; [apply M_list; exact LO'|]. exact N.
        * left. eapply P_separator; eassumption.
      + pose proof (proj1 (comma_list_none rs) E) as NL. destruct (fits_seq_in _ _ _ FS H) as (r & ds & Ir & Fr & Hd).
        assert (Lr : lawful (labelled l) r).
        { inversion L as [| | |? n ? LO| |? ? L'| |]; subst; [destruct (NL _ LO)|apply L'; exact Ir]. }
        destruct (IH r Ir l ds c Lr Fr Hd) as [P|(f & M & W)]; [left; eapply P_seq; eassumption|right].
        exists f. split; [eapply M_seq; eassumption|exact W].
    - rewrite Forall_forall in IH. inversion F; subst. inversion L; subst.
      match goal with I : In ?r rs, Fr : fits G ?r cs |- _ => destruct (IH r I l cs c) as [P|(f & M & W)]; auto;
        [left; eapply P_alt; eassumption|right; exists f; split; [eapply M_alt; eassumption|exact W]] end.
    - inversion F; subst; [destruct H|]. inversion L; subst.
      destruct (IH l cs c) as [P|(f & M & W)]; auto; [left; constructor; exact P|right].
      exists f. split; [constructor; exact M|exact W].
    - destruct (fits_rep_in _ _ _ F H) as (ds & Fd & Hd). inversion L; subst. inversion Fd; subst.
      destruct Hd as [<-|[]]. right. eexists. split; [constructor|]. cbn [wanted]. assumption.
  Qed.
  Lemma required_present l r f : requires_ l r f -> forall cs, fits G r cs -> exists c, In c cs /\ wanted G f c.
  Proof.
    induction 1 as [l n|l t N|l n rs L|l r f H IH|l rs r f N Hr H IH|l rs f NE H IH]; intros cs F.
    - inversion F; subst. eexists. split; [left; reflexivity|assumption].
    - inversion F; subst. eexists. split; [left; reflexivity|]. exists t. auto.
    - destruct L as (s & ->). inversion F as [| | |? ? FS| | | | |]; subst. inversion FS as [|? ? x y Fx Fy]; subst.
      inversion Fx; subst. eexists. split; [left; reflexivity|assumption].
    - inversion F; subst. auto.
    - inversion F as [| | |? ? FS| | | | |]; subst. clear F N. revert cs FS. induction rs as [|r' rs IHrs]; [destruct Hr|].
      intros cs FS. inversion FS as [|? ? x y Fx Fy]; subst. destruct Hr as [->|Hr].
      + destruct (IH _ Fx) as (c & Hc & W). exists c. split; [apply in_app_iff; auto|exact W].
      + destruct (IHrs Hr y Fy) as (c & Hc & W). exists c. split; [apply in_app_iff; auto|exact W].
    - inversion F; subst. eauto.
  Qed.
  Lemma requires_mentions l r f : requires_ l r f -> mentions_ token_field l r f.
  Proof.
    induction 1 as [l n|l t N|l n rs L|l r f H IH|l rs r f N Hr H IH|l rs f NE H IH].
    - constructor.
    - constructor; exact N.
    - apply M_list; exact L.
    - constructor; exact IH.
    - eapply M_seq; eassumption.
    - destruct rs as [|r rs]; [congruence|]. eapply M_alt; [left; reflexivity|]. apply IH. left; reflexivity.
  Qed.
  Lemma literal_not_quoted t t' : literal_token t' -> token_field t = token_field t' -> t = t'.
  Proof.
    intros L H. unfold token_field in H.
    assert (J : forall x y, FToken x = FToken y -> x = y) by (intros x y X; injection X as X; exact X). apply J in H. clear J.
    assert (E : mem t' [`"("; `")"; `"{"; `"}"; `"["; `"]"] = false).
    { destruct L as [<-|[<-|[<-|[]]]]; reflexivity. }
    rewrite E in H. destruct (mem t _); [|exact H].
    exfalso. destruct L as [<-|[<-|[<-|[]]]]; discriminate H.
  Qed.
  Lemma mention_not_literal l r f : mentions_ token_field l r f -> forall t, f = token_field t -> ~ literal_token t.
  Proof.
    induction 1 as [l n|l t N|l n|l n rs L|l r f H IH|l rs r f N Hr H IH|l rs r f Hr H IH|l r f H IH]; try assumption; intros t0 E.
    - discriminate E.
    - intros X. apply N. rewrite (literal_not_quoted _ _ X E). exact X.
    - discriminate E.
    - discriminate E.
  Qed.
  Lemma stands_for_wanted f f' c : stands_for G f f' -> wanted G f c -> wanted G f' c.
  Proof.
    intros [->|(n & ty & b & E & vs & -> & HE & V & ->)] W; [exact W|]. cbn [wanted] in *.
    destruct W as [Hn [(r & S & K)|(vs' & v & E' & V' & K)]]; (split; [exact Hn|]); right.
    - exists vs, ty. auto.
    - destruct (variants_are_structs G PG a Ha _ _ _ HE V) as [r S]. destruct (enum_not_struct G PG _ _ _ E' S).
  Qed.
  Lemma stands_for_not_literal f f' : stands_for G f f' -> (forall t, f = token_field t -> ~ literal_token t) ->
    forall t, f' = token_field t -> ~ literal_token t.
  Proof. intros [->|(n & ty & b & E & vs & -> & HE & V & ->)] H t X; [apply H; exact X|discriminate X]. Qed.
End Trees.
