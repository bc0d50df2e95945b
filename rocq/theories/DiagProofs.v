(** Diagnostics of one file. *)
From Coq Require Import String.
From Verif Require Import Base BaseProofs TextSpec LineIndex LineIndexProofs LineEndings DocChanges DocChangesSpec DocChangesProofs
  TreeSpec GreenSpec Sink ParseProofs PropText PropParser Database Diagnostics DiagSpec.
Local Open Scope N_scope.

Lemma map_res_Forall2 {A B} (f : A -> res B) (R : A -> B -> Prop) l :
  (forall x, In x l -> exists y, f x = Ok y /\ R x y) -> exists ys, map_res f l = Ok ys /\ Forall2 R l ys.
Proof.
  induction l as [|x l IH]; intros H; cbn [map_res]; [exists []; auto|].
  destruct (H x (or_introl eq_refl)) as [y [Hy Hr]]. rewrite Hy. cbn [bind].
  destruct IH as [ys [Hys Hf]]; [intros z Hz; apply H; right; auto|]. rewrite Hys. cbn [bind]. eauto.
Qed.

Lemma parse_source t g errs : source_file_parse t = Ok (g, errs) -> parse_text t = Ok (g, errs).
Proof.
  unfold source_file_parse. destruct (parse_text t) as [[g' errs']| |]; cbn [bind]; try discriminate.
  destruct (assert_ _); cbn [bind]; congruence.
Qed.

(** every error position is a character boundary *)
Lemma error_boundary t g errs e : tlen t < u32_bound -> parse_text t = Ok (g, errs) -> In e errs ->
  exists before after, t = before ++ after /\ tlen before = se_pos e.
Proof.
  intros Hs H He. destruct (C22_error_positions t g errs Hs H) as [_ Hb]. destruct (Hb e He) as (b & a & Hl & Hp).
  pose proof (C19_lossless t g errs Hs H) as L. unfold gtext in L. rewrite Hl, map_app, concat_app in L.
  exists (concat (map snd b)), (concat (map snd a)). auto.
Qed.

(** What [publish_diagnostics] returns, and that only a panic of the parser
    can stop it. *)
Lemma publish_diagnostics_spec endings db id t :
  alookup N.eqb id endings <> None -> file_text db id = Ok t -> tlen t < u32_bound ->
  match source_file_parse t with
  | Ok (g, errs) => exists ds, publish_diagnostics endings db id = Ok ds /\ Forall2 (diagnostic_of Utf8 t) (firstn 128 errs) ds
  | Panic w => publish_diagnostics endings db id = Panic w
  | Fuel => False
  end.
Proof.
  intros He Ht Hs. unfold publish_diagnostics. destruct (alookup N.eqb id endings) as [le|]; [|contradiction]. cbn [index bind].
  rewrite Ht. cbn [bind]. unfold li_new. rewrite (proj2 (N.ltb_lt _ _) Hs). cbn [bind].
  unfold file_diagnostics. rewrite Ht. cbn [bind].
  destruct (source_file_parse t) as [[g errs]|w|] eqn:E; cbn [bind]; [|auto|].
  - apply parse_source in E.
    destruct (map_res_Forall2 (fun e => to_lsp (li_build t) (`"Syntax Error: " ++ se_msg e, se_pos e)) (diagnostic_of Utf8 t) (firstn 128 errs)) as [ds [H1 H2]].
    { intros e He'. assert (In e errs) as He'' by (rewrite <- (firstn_skipn 128 errs); apply in_or_app; auto). destruct (error_boundary t g errs e Hs E He'') as (b & a & Hba & Hp).
      unfold to_lsp, tp_range. cbn [snd fst]. rewrite <- Hp. assert (Hpos : tp_position Utf8 (li_build t) (tlen b) = Ok (spec_position Utf8 b)) by (rewrite Hba; apply tp_position_spec).
      rewrite !Hpos. cbn [bind].
      eexists. split; [reflexivity|]. exists b, a. split; [auto|]. split; [auto|reflexivity]. }
    exists ds. split; [|exact H2]. rewrite <- H1. clear. induction (firstn 128 errs) as [|e l IH]; [reflexivity|].
    cbn [map map_res]. rewrite IH. reflexivity.
  - unfold source_file_parse in E. destruct (parse_text t) as [[g errs]|w|] eqn:P; cbn [bind] in E; try discriminate.
    + destruct (assert_ _) eqn:A; cbn [bind] in E; try discriminate. unfold assert_ in A. destruct (match g with GNode _ _ => _ | GTok _ _ => _ end); discriminate.
    + eapply C21_parsing_stops; eauto.
Qed.
