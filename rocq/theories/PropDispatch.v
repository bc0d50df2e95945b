(** Property C55: requests and notifications are routed to the first handler
    registered for them and answered exactly once, whatever the table of
    handlers is. *)
From Coq Require Import String.
From Verif Require Import Base BaseProofs Server ServerInv Dispatch DispatchSpec.
Local Open Scope N_scope.


Lemma outcome_reports o : reports o (outcome_answer o).
Proof. destruct o as [v|[code m| |m]|[m|]]; constructor. Qed.

(** ** One request *)
Section Table.
  Context {D : Type} (down : D -> bool) (rts : list (route D)).

  Lemma visit_taken rt s out : visit rt (None, s, out) = Ok (None, s, out) :> res (visitor D).
  Proof. reflexivity. Qed.
  Lemma visit_all_taken l s out : visit_all l (None, s, out) = Ok (None, s, out) :> res (visitor D).
  Proof. induction l as [|rt l IH]; [reflexivity|]. cbn [visit_all]. rewrite visit_taken. exact IH. Qed.
  Lemma visit_other rt c s out : rt_method rt <> cl_method c -> visit rt (Some c, s, out) = Ok (Some c, s, out) :> res (visitor D).
  Proof.
    intros H. unfold visit, visit_parse. destruct (text_eqb _ _) eqn:E; [|reflexivity].
    apply text_eqb_eq in E. congruence.
  Qed.
  Lemma visit_all_others l c s out : (forall x, In x l -> rt_method x <> cl_method c) ->
    visit_all l (Some c, s, out) = Ok (Some c, s, out) :> res (visitor D).
  Proof.
    induction l as [|rt l IH]; intros H; [reflexivity|]. cbn [visit_all]. rewrite visit_other by (apply H; left; reflexivity).
    cbn [bind]. apply IH. intros x I. apply H. right. exact I.
  Qed.
  Lemma visit_all_app l1 : forall l2 (v : visitor D), visit_all (l1 ++ l2) v = (let! v := visit_all l1 v in visit_all l2 v).
  Proof. induction l1 as [|rt l1 IH]; intros l2 v; [reflexivity|]. cbn [visit_all app]. destruct (visit rt v); [apply IH|reflexivity|reflexivity]. Qed.
  Lemma find_route (l : list (route D)) m : (exists rt, first_route l m rt) \/ (forall rt, In rt l -> rt_method rt <> m).
  Proof.
    induction l as [|rt l [[x (b & a & -> & E & N)]|IH]]; [right; intros _ []| |].
    - destruct (text_eqb (rt_method rt) m) eqn:Em.
      + apply text_eqb_eq in Em. left. exists rt, [], (b ++ x :: a). split; [reflexivity|]. split; [exact Em|intros _ []].
      + left. exists x, (rt :: b), a. split; [reflexivity|]. split; [exact E|]. intros y [<- |I]; [|apply N; exact I].
        intros X. apply text_eqb_eq in X. congruence.
    - destruct (text_eqb (rt_method rt) m) eqn:Em.
      + apply text_eqb_eq in Em. left. exists rt, [], l. split; [reflexivity|]. split; [exact Em|intros _ []].
      + right. intros y [<- |I]; [|apply IH; exact I]. intros X. apply text_eqb_eq in X. congruence.
  Qed.
  Lemma first_route_unique (l : list (route D)) m x y : first_route l m x -> first_route l m y -> x = y.
  Proof.
    intros (b1 & a1 & -> & E1 & N1) (b2 & a2 & E & E2 & N2). revert b2 E N2. induction b1 as [|z b1 IH]; intros [|w b2] E N2; cbn in E.
    - congruence.
    - injection E as -> _. exfalso. apply (N2 w); [left; reflexivity|exact E1].
    - injection E as -> _. exfalso. apply (N1 y); [left; reflexivity|exact E2].
    - injection E as -> E. apply (IH (fun x I => N1 x (or_intror I)) b2 E). intros x' I. apply N2. right. exact I.
  Qed.
  Lemma visit_first c s rt : first_route rts (cl_method c) rt ->
    visit_all rts (Some c, s, []) =
      (let! v := visit rt (Some c, s, []) in
       match v with (None, _, _) => Ok v | (Some _, _, _) => Panic PUnreachable end) :> res (visitor D).
  Proof.
    intros (b & a & -> & E & N). rewrite visit_all_app, visit_all_others by exact N. cbn [bind visit_all].
    destruct (visit rt (Some c, s, [])) as [[[[c'|] s'] o']|w|] eqn:V; cbn [bind]; try reflexivity.
    - exfalso. revert V. unfold visit, visit_parse. rewrite (proj2 (text_eqb_eq _ _) (eq_sym E)).
      destruct (rt_decode rt (cl_params c)) as [p|e].
      + destruct (rt_handler rt) as [f|f|f]; cbn.
        * destruct (f (g_data s) p) as [d [v|e|p']]; cbn; try discriminate; destruct (g_respond _ _); discriminate.
        * destruct (g_respond _ _); discriminate.
        * discriminate.
      + destruct (g_respond _ _). discriminate.
    - apply visit_all_taken.
  Qed.

  (** answering the request that was just registered *)
  Lemma respond_registered (s : gstate D) c a (d : D) :
    g_respond (set_data (g_register s c) d) {| rs_id := cl_id c; rs_answer := a |} =
    (set_data (set_incoming s (aremove id_eqb (cl_id c) (ainsert id_eqb (cl_id c) (cl_method c) (g_incoming s)))) d,
     [{| rs_id := cl_id c; rs_answer := a |}]).
  Proof.
    unfold g_respond, g_register. cbn [rs_id set_data set_incoming g_incoming]. rewrite (alookup_insert _ id_eqb_spec). reflexivity.
  Qed.
  Lemma respond_registered' (s : gstate D) c a :
    g_respond (g_register s c) {| rs_id := cl_id c; rs_answer := a |} =
    (set_incoming s (aremove id_eqb (cl_id c) (ainsert id_eqb (cl_id c) (cl_method c) (g_incoming s))),
     [{| rs_id := cl_id c; rs_answer := a |}]).
  Proof.
    unfold g_respond, g_register. cbn [rs_id set_data set_incoming g_incoming]. rewrite (alookup_insert _ id_eqb_spec). reflexivity.
  Qed.

  Definition gone (s : gstate D) (c : call) := aremove id_eqb (cl_id c) (ainsert id_eqb (cl_id c) (cl_method c) (g_incoming s)).

  (** what one request does, by cases *)
  Lemma request_cases s c : 
    (exists a s', g_request down rts s c = Ok (s', [{| rs_id := cl_id c; rs_answer := a |}]) /\
       due down rts (g_data s) c a /\ ~ pooled down rts (g_data s) c /\ ~ blows_up down rts (g_data s) c /\ data_after down rts (g_data s) c (g_data s') /\
       g_incoming s' = gone s c /\ g_pool s' = g_pool s /\ g_done s' = g_done s) \/
    (exists rt p f, g_request down rts s c = Ok (set_pool (g_register s c) (g_pool s ++ [{| pd_id := cl_id c; pd_run := f (g_data s) p |}]) (g_done s), []) /\
       down (g_data s) = false /\ first_route rts (cl_method c) rt /\ rt_decode rt (cl_params c) = inl p /\ rt_handler rt = OnPool f) \/
    (g_request down rts s c = Panic PUnreachable /\ blows_up down rts (g_data s) c).
  Proof.
    unfold g_request. change (g_data (g_register s c)) with (g_data s). destruct (down (g_data s)) eqn:Hd.
    { left. rewrite respond_registered'. eexists _, _. split; [reflexivity|]. split; [apply due_down; exact Hd|].
      split; [intros [X _]; congruence|]. split; [intros [X _]; congruence|].
      split; [|auto]. apply (da_same down rts (g_data s) c). intros; congruence. }
    destruct (find_route rts (cl_method c)) as [[rt F]|N].
    2: { left. rewrite visit_all_others by exact N. cbn [bind visit_finish]. rewrite respond_registered'.
         assert (X : forall rt, ~ first_route rts (cl_method c) rt).
         { intros rt (b & a & -> & E & _). apply (N rt); [|exact E]. apply in_or_app. right. left. reflexivity. }
         eexists _, _. split; [reflexivity|]. split; [apply due_unknown; auto|].
         split; [intros (_ & rt & p & f & F & _); exact (X _ F)|].
         split; [intros (_ & rt & p & f & m & F & _); exact (X _ F)|].
         split; [|auto]. apply (da_same down rts (g_data s) c). intros rt p f _ F. destruct (X _ F). }
    rewrite (visit_first _ _ _ F). assert (E : rt_method rt = cl_method c) by (destruct F as (? & ? & _ & E & _); exact E).
    unfold visit, visit_parse. rewrite (proj2 (text_eqb_eq _ _) (eq_sym E)).
    assert (U : forall rt', first_route rts (cl_method c) rt' -> rt' = rt) by (intros rt' F'; exact (first_route_unique _ _ _ _ F' F)).
    destruct (rt_decode rt (cl_params c)) as [p|err] eqn:Hp.
    - destruct (rt_handler rt) as [f|f|f] eqn:Hh.
      + change (g_data (g_register s c)) with (g_data s). destruct (f (g_data s) p) as [d o] eqn:Hf.
        assert (O : comes_to (g_data s) p (rt_handler rt) o) by (rewrite Hh; replace o with (snd (f (g_data s) p)) by (rewrite Hf; reflexivity); constructor).
        assert (Da : data_after down rts (g_data s) c d).
        { replace d with (fst (f (g_data s) p)) by (rewrite Hf; reflexivity). exact (da_mut down rts (g_data s) c rt p f Hd F Hp Hh). }
        assert (NP : ~ pooled down rts (g_data s) c).
        { intros (_ & rt' & p' & f' & F' & Hp' & Hh'). pose proof (U _ F') as Eu; subst rt'. rewrite Hh in Hh'. discriminate. }
        destruct o as [v|e|pl].
        * left. rewrite respond_registered. cbn [bind visit_finish app]. eexists _, _. split; [reflexivity|].
          split; [exact (due_handler down rts (g_data s) c rt p _ _ Hd F Hp O (outcome_reports _))|]. split; [exact NP|].
          split; [|auto]. intros (_ & rt' & p' & f' & m & F' & Hp' & Hh' & Hm). pose proof (U _ F') as Eu; subst rt'. rewrite Hp in Hp'. injection Hp' as <-.
          rewrite Hh in Hh'. injection Hh' as <-. rewrite Hf in Hm. discriminate.
        * left. rewrite respond_registered. cbn [bind visit_finish app]. eexists _, _. split; [reflexivity|].
          split; [exact (due_handler down rts (g_data s) c rt p _ _ Hd F Hp O (outcome_reports _))|]. split; [exact NP|].
          split; [|auto]. intros (_ & rt' & p' & f' & m & F' & Hp' & Hh' & Hm). pose proof (U _ F') as Eu; subst rt'. rewrite Hp in Hp'. injection Hp' as <-.
          rewrite Hh in Hh'. injection Hh' as <-. rewrite Hf in Hm. discriminate.
        * right. right. split; [reflexivity|]. split; [exact Hd|]. exists rt, p, f, pl. rewrite Hf. auto.
      + left. rewrite respond_registered'. cbn [bind visit_finish app]. change (g_data (g_register s c)) with (g_data s). eexists _, _. split; [reflexivity|].
        split; [apply (due_handler down rts (g_data s) c rt p (f (g_data s) p) _ Hd F Hp); [rewrite Hh; constructor|apply outcome_reports]|].
        split; [intros (_ & rt' & p' & f' & F' & Hp' & Hh'); pose proof (U _ F') as Eu; subst rt'; rewrite Hh in Hh'; discriminate|].
        split; [intros (_ & rt' & p' & f' & m & F' & Hp' & Hh' & _); pose proof (U _ F') as Eu; subst rt'; rewrite Hh in Hh'; discriminate|].
        split; [|auto]. apply (da_same down rts (g_data s) c). intros rt' p' f' _ F' Hp'. pose proof (U _ F') as Eu; subst rt'. rewrite Hh. discriminate.
      + right. left. exists rt, p, f. auto.
    - left. rewrite respond_registered'. cbn [bind visit_finish app]. unfold from_json_error. rewrite E. eexists _, _. split; [reflexivity|].
      split; [exact (due_params down rts (g_data s) c rt err Hd F Hp)|].
      split; [intros (_ & rt' & p' & f' & F' & Hp' & Hh'); pose proof (U _ F') as Eu; subst rt'; congruence|].
      split; [intros (_ & rt' & p' & f' & m & F' & Hp' & Hh' & _); pose proof (U _ F') as Eu; subst rt'; congruence|].
      split; [|auto]. apply (da_same down rts (g_data s) c). intros rt' p' f' _ F' Hp'. pose proof (U _ F') as Eu; subst rt'. congruence.
  Qed.

  (** ** Runs *)
  Variable d0 : D.
  Notation run := (g_run down rts (g_start d0)).
  Lemma run_app es1 : forall s es2, g_run down rts s (es1 ++ es2) =
    (let! (s1, o1) := g_run down rts s es1 in let! (s2, o2) := g_run down rts s1 es2 in Ok (s2, o1 ++ o2)).
  Proof.
    induction es1 as [|e es1 IH]; intros s es2; cbn [g_run app].
    - cbn [bind]. destruct (g_run down rts s es2) as [[s2 o2]|w|]; reflexivity.
    - destruct (g_step down rts s e) as [[s1 o1]|w|]; cbn [bind]; try reflexivity. rewrite IH.
      destruct (g_run down rts s1 es1) as [[s2 o2]|w|]; cbn [bind]; try reflexivity.
      destruct (g_run down rts s2 es2) as [[s3 o3]|w|]; cbn [bind]; try reflexivity. rewrite app_assoc. reflexivity.
  Qed.
  Lemma run_snoc es e s out : run (es ++ [e]) = Ok (s, out) ->
    exists s1 o1 o2, run es = Ok (s1, o1) /\ g_step down rts s1 e = Ok (s, o2) /\ out = o1 ++ o2.
  Proof.
    rewrite run_app. intros H. apply bind_ok in H as ([s1 o1] & H1 & H). apply bind_ok in H as ([s2 o2] & H2 & H).
    injection H as <- <-. cbn [g_run] in H2. apply bind_ok in H2 as ([s3 o3] & H2 & H3). cbn [bind] in H3. injection H3 as <- <-.
    exists s1, o1, o3. rewrite app_nil_r. auto.
  Qed.
  Lemma calls_app (es1 es2 : list (event D)) : calls (es1 ++ es2) = calls es1 ++ calls es2.
  Proof. induction es1 as [|e es1 IH]; [reflexivity|]. destruct e; cbn [calls app]; rewrite IH; reflexivity. Qed.
  Lemma call_ids_snoc (es : list (event D)) c : call_ids (es ++ [ERequest c]) = call_ids es ++ [cl_id c].
  Proof. unfold call_ids. rewrite calls_app, map_app. reflexivity. Qed.
  Lemma call_ids_same (es : list (event D)) e : (forall c, e <> ERequest c) -> call_ids (es ++ [e]) = call_ids es.
  Proof. unfold call_ids. rewrite calls_app. destruct e; cbn [calls]; intros H; rewrite ?app_nil_r; try reflexivity. destruct (H c). reflexivity. Qed.

  Definition known es id a := exists c d, arrived down rts d0 es c d /\ cl_id c = id /\ due down rts d c a.
  Lemma arrived_more es e c d : arrived down rts d0 es c d -> arrived down rts d0 (es ++ [e]) c d.
  Proof. intros (b & a & s & o & -> & H). exists b, (a ++ [e]), s, o. split; [rewrite <- app_assoc; reflexivity|exact H]. Qed.
  Lemma known_more es e id a : known es id a -> known (es ++ [e]) id a.
  Proof. intros (c & d & H & H'). exists c, d. split; [apply arrived_more; exact H|exact H']. Qed.

  Record inv (es : list (event D)) (s : gstate D) (out : list response) : Prop := {
    i_incoming : forall id, alookup id_eqb id (g_incoming s) <> None <-> In id (call_ids es) /\ ~ In id (map rs_id out);
    i_sound : forall id, In id (map rs_id out) -> In id (call_ids es);
    i_once : NoDup (map rs_id out);
    i_worked : forall id, alookup id_eqb id (g_incoming s) <> None -> In id (map pd_id (g_pool s)) \/ In id (map rs_id (g_done s));
    i_pool : forall j cut, In j (g_pool s) -> known es (pd_id j) (outcome_answer (pd_run j cut));
    i_done : forall r, In r (g_done s) -> known es (rs_id r) (rs_answer r);
    i_right : forall r, In r out -> known es (rs_id r) (rs_answer r) \/ (In (ECancel (rs_id r)) es /\ rs_answer r = cancelled_answer)
  }.

  (** removing an answered request from the queue *)
  Lemma removed_iff (m : list (request_id * text)) id id' :
    alookup id_eqb id' (aremove id_eqb id m) <> None <-> alookup id_eqb id' m <> None /\ id' <> id.
  Proof.
    destruct (id_eqb id id') eqn:E.
    - apply id_eqb_spec in E as <-. rewrite (alookup_remove id_eqb). split; [congruence|]. intros [_ X]. congruence.
    - assert (N : id <> id') by (intros X; apply id_eqb_spec in X; congruence). rewrite (alookup_remove_ne _ id_eqb_spec) by congruence.
      split; [intros H; split; [exact H|congruence]|tauto].
  Qed.
  Lemma inserted_iff (m : list (request_id * text)) id v id' :
    alookup id_eqb id' (ainsert id_eqb id v m) <> None <-> alookup id_eqb id' m <> None \/ id' = id.
  Proof.
    destruct (id_eqb id id') eqn:E.
    - apply id_eqb_spec in E as <-. rewrite (alookup_insert _ id_eqb_spec). split; [right; reflexivity|congruence].
    - assert (N : id <> id') by (intros X; apply id_eqb_spec in X; congruence). rewrite (alookup_insert_ne _ id_eqb_spec) by congruence.
      split; [left; assumption|intros [H|H]; [exact H|congruence]].
  Qed.
  Lemma nodup_snoc {A} (l : list A) x : NoDup l -> ~ In x l -> NoDup (l ++ [x]).
  Proof.
    intros H N. induction H as [|y l Hy H IH]; cbn; [repeat constructor; auto|]. constructor.
    - rewrite in_app_iff. intros [X|[-> |[]]]; [auto|]. apply N. left. reflexivity.
    - apply IH. intros X. apply N. right. exact X.
  Qed.

  (** an answer to a request that is waiting *)
  Lemma inv_answer es s out r :
    inv es s out -> alookup id_eqb (rs_id r) (g_incoming s) <> None ->
    (known es (rs_id r) (rs_answer r) \/ (In (ECancel (rs_id r)) es /\ rs_answer r = cancelled_answer)) ->
    inv es (set_incoming s (aremove id_eqb (rs_id r) (g_incoming s))) (out ++ [r]).
  Proof.
    intros [I1 I2 I3 I4 I5 I6 I7] W K. destruct (proj1 (I1 _) W) as [W1 W2]. constructor; cbn [g_incoming set_incoming g_pool g_done].
    - intros id. rewrite removed_iff, I1, map_app, in_app_iff. cbn. intuition congruence.
    - intros id. rewrite map_app, in_app_iff. cbn. intros [H|[<- |[]]]; auto.
    - rewrite map_app. apply nodup_snoc; assumption.
    - intros id H. apply removed_iff in H as [H _]. auto.
    - exact I5.
    - exact I6.
    - intros x. rewrite in_app_iff. cbn. intros [H|[<- |[]]]; auto.
  Qed.
  (** an event that is no request *)
  Lemma inv_event es s out e : (forall c, e <> ERequest c) -> inv es s out -> inv (es ++ [e]) s out.
  Proof.
    intros N [I1 I2 I3 I4 I5 I6 I7]. constructor; try rewrite (call_ids_same es e N); auto.
    - intros j cut H. apply known_more. auto.
    - intros r H. apply known_more. auto.
    - intros r H. destruct (I7 r H) as [K|[K1 K2]]; [left; apply known_more; exact K|].
      right. split; [apply in_or_app; left; exact K1|exact K2].
  Qed.
  Lemma respond_inv es s out r s' o : g_respond s r = (s', o) -> inv es s out ->
    (known es (rs_id r) (rs_answer r) \/ (In (ECancel (rs_id r)) es /\ rs_answer r = cancelled_answer)) -> inv es s' (out ++ o).
  Proof.
    unfold g_respond. destruct (alookup id_eqb (rs_id r) (g_incoming s)) eqn:E; intros H I K; injection H as <- <-.
    - apply inv_answer; [exact I|congruence|exact K].
    - rewrite app_nil_r. exact I.
  Qed.

  Lemma in_rest {A} k (l : list A) x j : nth_error l k = Some j -> In x l -> x = j \/ In x (firstn k l ++ skipn (S k) l).
  Proof.
    revert l. induction k as [|k IH]; intros [|y l] H I; try discriminate; cbn in H.
    - injection H as ->. destruct I as [<- |I]; [auto|]. right. exact I.
    - destruct I as [<- |I]; [right; left; reflexivity|]. destruct (IH _ H I) as [-> |J]; [auto|]. right. right. exact J.
  Qed.
  Lemma rest_in {A} k (l : list A) x : In x (firstn k l ++ skipn (S k) l) -> In x l.
  Proof.
    intros H. rewrite <- (firstn_skipn k l). apply in_app_or in H as [H|H]; apply in_or_app; [left; exact H|right].
    revert l H. induction k as [|k IH]; intros [|y l] H; cbn in *; auto.
  Qed.

  Lemma run_inv es s out : run es = Ok (s, out) -> NoDup (call_ids es) -> inv es s out.
  Proof.
    revert s out. induction es as [|e es IH] using rev_ind; intros s out H ND.
    { injection H as <- <-. constructor; cbn; try tauto; try (intros; contradiction). }
    apply run_snoc in H as (s1 & o1 & o2 & H1 & H2 & ->).
    assert (ND1 : NoDup (call_ids es)).
    { unfold call_ids in *. rewrite calls_app, map_app in ND. revert ND. generalize (map cl_id (calls es)). intros l ND.
      induction l as [|x l IHl]; [constructor|]. inversion ND; subst. constructor; [|auto]. intros X. apply H3. apply in_or_app. auto. }
    specialize (IH _ _ H1 ND1). destruct e as [c|id|k cut| |f]; cbn [g_step] in H2.
    - assert (New : ~ In (cl_id c) (call_ids es)).
      { rewrite call_ids_snoc in ND. apply NoDup_remove_2 in ND. rewrite app_nil_r in ND. exact ND. }
      assert (Arr : arrived down rts d0 (es ++ [ERequest c]) c (g_data s1)) by (exists es, [], s1, o1; auto).
      destruct IH as [I1 I2 I3 I4 I5 I6 I7].
      assert (Fresh : alookup id_eqb (cl_id c) (g_incoming s1) = None).
      { destruct (alookup id_eqb (cl_id c) (g_incoming s1)) eqn:E; [|reflexivity]. destruct New. apply I1. congruence. }
      destruct (request_cases s1 c) as [(a & s' & R & Du & _ & _ & _ & G & P & Q)|[(rt & p & f & R & Hd & F & Hp & Hh)|[R _]]]; rewrite R in H2; [| |discriminate].
      + injection H2 as <- <-. constructor.
        * intros id. rewrite G. unfold gone. rewrite removed_iff, inserted_iff, I1, call_ids_snoc, map_app, !in_app_iff. cbn.
          split; [intros [[[X Y]|X] Z]; [|congruence]; split; [auto|]; intros [U|[U|[]]]; [auto|congruence]|].
          intros [[X|[X|[]]] Y]; [|subst id; exfalso; apply Y; auto]. split; [left; split; [exact X|tauto]|]. intros ->. auto.
        * intros id. rewrite map_app, in_app_iff, call_ids_snoc, in_app_iff. cbn. intros [X|X]; auto.
        * rewrite map_app. apply nodup_snoc; [exact I3|]. cbn. intros X. apply New. auto.
        * intros id. rewrite G, P, Q. unfold gone. rewrite removed_iff, inserted_iff. intros [[X|X] Y]; [auto|congruence].
        * rewrite P. intros j cut J. apply known_more. auto.
        * rewrite Q. intros r J. apply known_more. auto.
        * intros r. rewrite in_app_iff. cbn. intros [X|[<- |[]]].
          -- destruct (I7 r X) as [K|[K1 K2]]; [left; apply known_more; exact K|right; split; [apply in_or_app; auto|exact K2]].
          -- left. exists c, (g_data s1). auto.
      + injection H2 as <- <-. rewrite app_nil_r. constructor; cbn [g_incoming set_pool g_register set_incoming g_pool g_done].
        * intros id. rewrite inserted_iff, I1, call_ids_snoc, in_app_iff. cbn.
          split; [intros [[X Y]| ->]; [auto|]; split; [auto|]; intros U; apply New; auto|].
          intros [[X|[X|[]]] Y]; auto.
        * intros id X. rewrite call_ids_snoc. apply in_or_app. auto.
        * exact I3.
        * intros id. rewrite inserted_iff, map_app, in_app_iff. cbn. intros [X|X]; [destruct (I4 id X); auto|auto].
        * intros j cut. rewrite in_app_iff. cbn. intros [X|[<- |[]]]; [apply known_more; auto|]. cbn [pd_id pd_run].
          exists c, (g_data s1). split; [exact Arr|]. split; [reflexivity|].
          apply (due_handler down rts (g_data s1) c rt p (f (g_data s1) p cut) _ Hd F Hp); [rewrite Hh; constructor|apply outcome_reports].
        * intros r X. apply known_more. auto.
        * intros r X. destruct (I7 r X) as [K|[K1 K2]]; [left; apply known_more; exact K|right; split; [apply in_or_app; auto|exact K2]].
    - injection H2 as H2. apply (inv_event _ _ _ (ECancel id)) in IH; [|discriminate].
      apply (respond_inv _ s1 _ {| rs_id := id; rs_answer := cancelled_answer |} _ _ H2 IH). right. split; [|reflexivity].
      apply in_or_app. right. left. reflexivity.
    - destruct (nth_error (g_pool s1) k) as [j|] eqn:E; injection H2 as <- <-; rewrite app_nil_r.
      + apply (inv_event _ _ _ (EFinish k cut)) in IH; [|discriminate]. destruct IH as [I1 I2 I3 I4 I5 I6 I7].
        constructor; cbn [g_incoming set_pool g_pool g_done]; auto.
        * intros id X. destruct (I4 id X) as [Y|Y]; [|right; rewrite map_app; apply in_or_app; left; exact Y].
          apply in_map_iff in Y as (y & <- & Y). destruct (in_rest _ _ _ _ E Y) as [-> |Z]; [|left; apply in_map; exact Z].
          right. rewrite map_app. apply in_or_app. right. left. reflexivity.
        * intros y c Y. apply I5. exact (rest_in _ _ _ Y).
        * intros r. rewrite in_app_iff. cbn. intros [Y|[<- |[]]]; [auto|]. cbn. apply I5. exact (nth_error_In _ _ E).
      + apply inv_event; [discriminate|exact IH].
    - apply (inv_event _ _ _ EReceive) in IH; [|discriminate].
      destruct (g_done s1) as [|r rest] eqn:E; injection H2 as H2.
      + subst. rewrite app_nil_r. exact IH.
      + destruct IH as [I1 I2 I3 I4 I5 I6 I7]. rewrite E in *.
        unfold g_respond in H2. change (g_incoming (set_pool s1 (g_pool s1) rest)) with (g_incoming s1) in H2.
        destruct (alookup id_eqb (rs_id r) (g_incoming s1)) eqn:L; injection H2 as <- <-.
        * assert (W : alookup id_eqb (rs_id r) (g_incoming s1) <> None) by congruence. destruct (proj1 (I1 _) W) as [W1 W2].
          constructor; cbn [g_incoming set_incoming set_pool g_pool g_done].
          -- intros id. rewrite removed_iff, I1, map_app, in_app_iff. cbn. intuition congruence.
          -- intros id. rewrite map_app, in_app_iff. cbn. intros [X|[<- |[]]]; auto.
          -- rewrite map_app. apply nodup_snoc; assumption.
          -- intros id X. apply removed_iff in X as [X Y]. destruct (I4 id X) as [Z|[Z|Z]]; auto. congruence.
          -- exact I5.
          -- intros x X. apply I6. right. exact X.
          -- intros x. rewrite in_app_iff. cbn. intros [X|[<- |[]]]; [auto|]. left. apply I6. left. reflexivity.
        * rewrite app_nil_r. constructor; cbn [g_incoming set_pool g_pool g_done]; auto.
          -- intros id X. destruct (I4 id X) as [Z|[Z|Z]]; auto. congruence.
          -- intros x X. apply I6. right. exact X.
    - injection H2 as <- <-. rewrite app_nil_r. apply (inv_event _ _ _ (EOther f)) in IH; [|discriminate].
      destruct IH. constructor; assumption.
  Qed.
End Table.

(** ** Theorems *)
(** Whatever the table of handlers, and however requests, cancellations,
    workers and results interleave: no request is answered twice, nothing else
    is answered, every answer is the one due (or the request was cancelled),
    and when no work is left every request has been answered. *)
Theorem C55_answered_once : forall {D} (down : D -> bool) rts d0 es s out,
  g_run down rts (g_start d0) es = Ok (s, out) -> NoDup (call_ids es) ->
  NoDup (map rs_id out) /\
  (forall r, In r out ->
     (exists c d, arrived down rts d0 es c d /\ cl_id c = rs_id r /\ due down rts d c (rs_answer r)) \/
     (In (rs_id r) (call_ids es) /\ In (ECancel (rs_id r)) es /\ rs_answer r = cancelled_answer)) /\
  (g_pool s = [] -> g_done s = [] -> forall id, In id (call_ids es) -> In id (map rs_id out)).
Proof.
  intros D down rts d0 es s out H ND. destruct (run_inv down rts d0 es s out H ND) as [I1 I2 I3 I4 I5 I6 I7].
  split; [exact I3|]. split.
  - intros r R. destruct (I7 r R) as [K|[K1 K2]]; [left; exact K|]. right. split; [|auto]. apply I2, in_map, R.
  - intros P Q id I. destruct (in_dec (fun a b => match Bool.bool_dec (id_eqb a b) true with left e => left (proj1 (id_eqb_spec a b) e) | right n => right (fun e => n (proj2 (id_eqb_spec a b) e)) end) id (map rs_id out)) as [Y|N]; [exact Y|].
    exfalso. assert (W : alookup id_eqb id (g_incoming s) <> None) by (apply I1; auto).
    rewrite P, Q in I4. destruct (I4 id W) as [[]|[]].
Qed.

(** A request is answered in the same turn unless it is worked on by the pool;
    then nothing is sent.  A handler that changes the data and panics is the
    only way in which a request ends the server. *)
Theorem C55_request_turn : forall {D} (down : D -> bool) rts (s : gstate D) c,
  match g_step down rts s (ERequest c) with
  | Ok (s', out) =>
      ~ blows_up down rts (g_data s) c /\ data_after down rts (g_data s) c (g_data s') /\
      ((~ pooled down rts (g_data s) c /\ exists a, due down rts (g_data s) c a /\ out = [{| rs_id := cl_id c; rs_answer := a |}]) \/
       (pooled down rts (g_data s) c /\ out = [] /\ length (g_pool s') = S (length (g_pool s))))
  | _ => blows_up down rts (g_data s) c
  end.
Proof.
  intros D down rts s c. cbn [g_step].
  destruct (request_cases down rts s c) as [(a & s' & -> & Du & NP & NB & Da & _)|[(rt & p & f & -> & Hd & F & Hp & Hh)|[-> B]]].
  - split; [exact NB|]. split; [exact Da|]. left. split; [exact NP|]. exists a. auto.
  - split; [|split].
    + intros (_ & rt' & p' & f' & m & F' & _ & Hh' & _). pose proof (first_route_unique _ _ _ _ F' F) as Eu. subst rt'. rewrite Hh in Hh'. discriminate.
    + apply (da_same down rts (g_data s) c). intros rt' p' f' _ F' _. pose proof (first_route_unique _ _ _ _ F' F) as Eu. subst rt'. rewrite Hh. discriminate.
    + right. split; [split; [exact Hd|exists rt, p, f; auto]|]. split; [reflexivity|]. cbn [g_pool set_pool]. rewrite app_length. cbn. lia.
  - exact B.
Qed.

(** A cancellation is answered at once if the request is waiting, and is
    otherwise ignored. *)
Theorem C55_cancellation : forall {D} (down : D -> bool) rts d0 es s out id s' o,
  g_run down rts (g_start d0) es = Ok (s, out) -> NoDup (call_ids es) ->
  g_step down rts s (ECancel id) = Ok (s', o) ->
  (In id (call_ids es) /\ ~ In id (map rs_id out) -> o = [{| rs_id := id; rs_answer := cancelled_answer |}]) /\
  (~ (In id (call_ids es) /\ ~ In id (map rs_id out)) -> o = []) /\
  g_data s' = g_data s /\ g_pool s' = g_pool s.
Proof.
  intros D down rts d0 es s out id s' o H ND E. destruct (run_inv down rts d0 es s out H ND) as [I1 _ _ _ _ _ _].
  cbn [g_step] in E. injection E as E. unfold g_cancel in E. rewrite <- I1. destruct (alookup id_eqb id (g_incoming s)); injection E as <- <-; cbn.
  - split; [reflexivity|]. split; [|auto]. intros X. destruct X. discriminate.
  - split; [congruence|]. auto.
Qed.

(** Work in progress can always be finished: some schedule of workers and
    receptions leaves every request answered. *)
Theorem C55_can_finish : forall {D} (down : D -> bool) rts (s : gstate D), exists es s' out,
  g_run down rts s es = Ok (s', out) /\ calls es = [] /\ g_pool s' = [] /\ g_done s' = [] /\ g_data s' = g_data s.
Proof.
  intros D down rts s. remember (length (g_pool s)) as n eqn:Hn. revert s Hn.
  induction n as [|n IH]; intros s Hn.
  - remember (length (g_done s)) as m eqn:Hm. revert s Hn Hm. induction m as [|m IHm]; intros s Hn Hm.
    + exists [], s, []. destruct (g_pool s); [|discriminate]. destruct (g_done s); [|discriminate]. auto.
    + destruct (g_done s) as [|r rest] eqn:E; [discriminate|]. injection Hm as Hm.
      destruct (g_respond (set_pool s (g_pool s) rest) r) as [s1 o1] eqn:R.
      assert (X : g_pool s1 = g_pool s /\ g_done s1 = rest /\ g_data s1 = g_data s).
      { unfold g_respond in R. destruct (alookup _ _ _); injection R as <- _; auto. }
      destruct X as (X1 & X2 & X3). destruct (IHm s1) as (es & s' & out & H1 & H2 & H3 & H4 & H5); [congruence|congruence|].
      exists (EReceive :: es), s', (o1 ++ out). cbn [g_run g_step]. rewrite E, R. cbn [bind]. rewrite H1. cbn [bind].
      split; [reflexivity|]. split; [exact H2|]. split; [exact H3|]. split; [exact H4|congruence].
  - destruct (g_pool s) as [|j rest] eqn:E; [discriminate|]. injection Hn as Hn.
    destruct (IH (set_pool s rest (g_done s ++ [{| rs_id := pd_id j; rs_answer := outcome_answer (pd_run j O) |}]))) as (es & s' & out & H1 & H2 & H3 & H4 & H5); [exact Hn|].
    exists (EFinish O O :: es), s', out. cbn [g_run g_step]. rewrite E. cbn [nth_error firstn skipn app bind]. rewrite H1. cbn [bind app]. auto.
Qed.

(** The table the program has (main_loop.rs:231-236), run by the general
    dispatcher, is the request handling of Server.v. *)
Definition shutdown_route : route state :=
  {| rt_method := `"shutdown"; rt_params := unit;
     rt_decode := fun v => if text_eqb v (`"null") then inl tt else inr (`"invalid type");
     rt_handler := OnSyncMut (fun s _ => (with_shutdown s true, Returned (`"null"))) |}.
Definition value_of (j : json) : value := match j with JNull => `"null" | JOther raw => raw end.
Definition forget (a : answer) : body := match a with AOk _ => BOk | AErr code _ => BErr code end.
Theorem C55_program_is_instance : forall s r,
  rq_params r <> JOther (`"null") ->
  exists s' out,
    g_request s_shutdown [shutdown_route]
      {| g_data := s; g_incoming := s_incoming s; g_pool := []; g_done := [] |}
      {| cl_id := rq_id r; cl_method := rq_method r; cl_params := value_of (rq_params r) |} = Ok (s', out) /\
    on_request s r = (with_incoming (g_data s') (g_incoming s'), map (fun x => OResponse (rs_id x) (forget (rs_answer x))) out).
Proof.
  intros s [id m ps] Hp. cbn [rq_params] in Hp. unfold g_request, on_request. cbn [g_data g_register set_incoming rq_id rq_method rq_params cl_id cl_method cl_params].
  change (s_shutdown (register_request s {| rq_id := id; rq_method := m; rq_params := ps |})) with (s_shutdown s).
  destruct (s_shutdown s) eqn:Hs.
  - unfold g_respond, respond, register_request, g_register. cbn [rs_id g_incoming set_incoming s_incoming with_incoming rq_id rq_method cl_id cl_method].
    rewrite (alookup_insert _ id_eqb_spec). eexists _, _. split; [reflexivity|]. reflexivity.
  - cbn [visit_all]. unfold visit, visit_parse, on_sync_mut, dispatch_parse.
    cbn [cl_method rt_method shutdown_route rq_method cl_params rt_decode rq_params rt_handler rq_id cl_id].
    destruct (text_eqb m (`"shutdown")) eqn:E.
    + destruct ps as [|raw]; cbn [value_of].
      * rewrite text_eqb_refl. unfold g_respond, respond, register_request, g_register.
        cbn [rs_id g_incoming set_incoming set_data s_incoming with_incoming with_shutdown rq_id rq_method g_data cl_id cl_method].
        rewrite !(alookup_insert _ id_eqb_spec). cbn [bind visit_finish dispatch_finish app]. eexists _, _. split; [reflexivity|]. reflexivity.
      * assert (N : text_eqb raw (`"null") = false) by (apply text_eqb_neq; congruence). rewrite N.
        unfold g_respond, respond, register_request, g_register.
        cbn [rs_id g_incoming set_incoming set_data s_incoming with_incoming with_shutdown rq_id rq_method g_data cl_id cl_method].
        rewrite !(alookup_insert _ id_eqb_spec). cbn [bind visit_finish dispatch_finish app]. eexists _, _. split; [reflexivity|]. reflexivity.
    + cbn [bind visit_finish dispatch_finish]. unfold g_respond, respond, register_request, g_register.
      cbn [rs_id g_incoming set_incoming set_data s_incoming with_incoming with_shutdown rq_id rq_method g_data cl_id cl_method].
      rewrite !(alookup_insert _ id_eqb_spec). eexists _, _. split; [reflexivity|]. reflexivity.
Qed.

(** Notifications go to the first listener for their method, and to no other. *)
Theorem C55_notifications : forall {D} (ls : list (listener D)) n d,
  (forall l, first_listener ls (nt_method n) l ->
     g_notification ls n d =
       match ls_decode l (nt_params n) with
       | None => Panic PUnreachable
       | Some p => match ls_handler l d p with
                   | Ok (inl d') => Ok (Handled d')
                   | Ok (inr e) => Ok (Aborted e)
                   | Panic w => Panic w
                   | Fuel => Fuel
                   end
       end) /\
  ((forall l, In l ls -> ls_method l <> nt_method n) ->
     exists log, g_notification ls n d = Ok (Unhandled d log) /\
       (log = false <-> exists rest, nt_method n = 36 :: 47 :: rest)).
Proof.
  intros D ls n d.
  assert (Skip : forall b rest, (forall x, In x b -> ls_method x <> nt_method n) -> notify_all (b ++ rest) (Some n) d = notify_all rest (Some n) d).
  { induction b as [|x b IH]; intros rest H; [reflexivity|]. cbn [app notify_all]. unfold notify at 1.
    assert (N : text_eqb (nt_method n) (ls_method x) = false) by (apply text_eqb_neq; intros X; apply (H x); [left; reflexivity|congruence]).
    rewrite N. cbn [bind]. apply IH. intros y Y. apply H. right. exact Y. }
  assert (Done : forall l d, notify_all l None d = Ok (inl (None, d)) :> res (option notice * D + failure)).
  { induction l as [|x l IH]; intros d'; [reflexivity|]. cbn [notify_all notify bind]. apply IH. }
  split.
  - intros l (b & a & -> & E & H). unfold g_notification. rewrite Skip by exact H. cbn [notify_all]. unfold notify at 1.
    rewrite E, text_eqb_refl. destruct (ls_decode l (nt_params n)) as [p|]; [|reflexivity].
    destruct (ls_handler l d p) as [[d'|e]|w|]; cbn [bind]; try reflexivity. rewrite Done. reflexivity.
  - intros H. unfold g_notification. rewrite <- (app_nil_r ls), Skip by exact H. cbn [notify_all bind].
    eexists. split; [reflexivity|]. change (`"$/") with [36; 47]. destruct (nt_method n) as [|x [|y rest]]; cbn [starts_with].
    + split; [discriminate|]. intros [r R]. discriminate.
    + rewrite andb_false_r. split; [discriminate|]. intros [r R]. discriminate.
    + destruct (x =? 36) eqn:E1; cbn [andb negb]; [destruct (y =? 47) eqn:E2; cbn [andb negb]|].
      * apply N.eqb_eq in E1, E2. subst. split; [eauto|]. destruct rest; reflexivity.
      * split; [discriminate|]. intros [r R]. injection R as -> -> ->. discriminate.
      * split; [discriminate|]. intros [r R]. injection R as -> -> ->. discriminate.
Qed.

(** ** A table with all three kinds of handlers, and a run *)
Definition any_params : value -> unit + text := fun v => if text_eqb v (`"{}") then inl tt else inr (`"bad").
Definition sample_table : list (route N) :=
  [ {| rt_method := `"inc"; rt_params := unit; rt_decode := any_params; rt_handler := OnSyncMut (fun d _ => (d + 1, if d =? 7 then Panicked POpaque else Returned (`"ok"))) |};
    {| rt_method := `"get"; rt_params := unit; rt_decode := any_params; rt_handler := OnSync (fun d _ => if d =? 0 then Panicked (PText (`"zero")) else Returned [48 + d]) |};
    {| rt_method := `"slow"; rt_params := unit; rt_decode := any_params; rt_handler := OnPool (fun d _ cut => match cut with O => Failed FCancelled | _ => Returned [48 + d] end) |};
    {| rt_method := `"get"; rt_params := unit; rt_decode := any_params; rt_handler := OnSync (fun d _ => Failed (FOther (`"never"))) |} ].
Definition sample_call (id : Z) (m : text) : event N := ERequest {| cl_id := IdNum id; cl_method := m; cl_params := `"{}" |}.
Definition sample_events : list (event N) :=
  [ sample_call 1 (`"get"); sample_call 2 (`"slow"); sample_call 3 (`"slow"); sample_call 4 (`"slow"); sample_call 5 (`"inc");
    sample_call 6 (`"get"); sample_call 7 (`"nope");
    ERequest {| cl_id := IdNum 8; cl_method := `"get"; cl_params := `"[]" |};
    EFinish 1 0; ECancel (IdNum 4); EFinish 0 5; EReceive; EFinish 0 3; EReceive; EReceive; ECancel (IdNum 2) ].
Example sample_run :
  match g_run (fun _ => false) sample_table (g_start 0) sample_events with
  | Ok (s, out) =>
      g_pool s = [] /\ g_done s = [] /\ g_data s = 1 /\
      map (fun r => (rs_id r, rs_answer r)) out =
      [ (IdNum 1, AErr (-32603) (`"server panicked: zero")); (IdNum 5, AOk (`"ok")); (IdNum 6, AOk (`"1"));
        (IdNum 7, AErr (-32601) (`"unknown request")); (IdNum 8, AErr (-32602) (`"Failed to deserialize get: bad; []"));
        (IdNum 4, AErr (-32800) (`"canceled by client"));
        (IdNum 3, AErr (-32801) (`"content modified")); (IdNum 2, AOk (`"0")) ]
  | _ => False
  end /\ NoDup (call_ids sample_events).
Proof. split; [vm_compute; auto|]. cbn. repeat constructor; cbn; intuition discriminate. Qed.
(** a handler that changes the data and panics ends the server *)
Example sample_blow_up : g_step (fun _ => false) sample_table (g_start 7) (sample_call 1 (`"inc")) = Panic PUnreachable.
Proof. vm_compute. reflexivity. Qed.
Example sample_down : forall s', g_step (fun d => 3 <? d) sample_table (g_start 5) (sample_call 1 (`"inc")) = Ok s' ->
  snd s' = [{| rs_id := IdNum 1; rs_answer := AErr (-32600) (`"Shutdown already requested.") |}].
Proof. intros s' H. vm_compute in H. injection H as <-. reflexivity. Qed.
Definition sample_listeners : list (listener N) :=
  [ {| ls_method := `"add"; ls_params := N; ls_decode := fun v => match v with [x] => Some (x - 48) | _ => None end;
       ls_handler := fun d p => Ok (if p =? 9 then inr (FOther (`"nine")) else inl (d + p)) |};
    {| ls_method := `"add"; ls_params := unit; ls_decode := fun _ => Some tt; ls_handler := fun d _ => Ok (inl 0) |} ].
Example sample_notifications :
  g_notification sample_listeners {| nt_method := `"add"; nt_params := `"4" |} 3 = Ok (Handled 7) /\
  g_notification sample_listeners {| nt_method := `"add"; nt_params := `"9" |} 3 = Ok (Aborted (FOther (`"nine"))) /\
  g_notification sample_listeners {| nt_method := `"add"; nt_params := `"44" |} 3 = Panic PUnreachable /\
  g_notification sample_listeners {| nt_method := `"$/setTrace"; nt_params := [] |} 3 = Ok (Unhandled 3 false) /\
  g_notification sample_listeners {| nt_method := `"$"; nt_params := [] |} 3 = Ok (Unhandled 3 true).
Proof. vm_compute. auto. Qed.

Print Assumptions C55_answered_once.
Print Assumptions C55_request_turn.
Print Assumptions C55_cancellation.
Print Assumptions C55_can_finish.
Print Assumptions C55_program_is_instance.
Print Assumptions C55_notifications.
