(** Lemmas: one feature; the statements about E-step and M-step. *)
From Verif Require Import Base BaseFacts RBase RFacts M_Data M_CV M_Logit M_Lik M_Est M_Stat M_Mix S_Mix P_Lik2 P_Lik3 P_Est1 P_Stat1 P_Stat3 P_Stat5 P_Eval1 P_Eval7 P_Mix1 P_Mix2 P_Mix3 P_Mix4.
Local Open Scope R_scope.

Lemma ln_sqrt_half v : 0 < v -> ln (sqrt v) = ln v / 2.
Proof.
  intros Hv. assert (P : 0 < sqrt v) by now apply sqrt_lt_R0. rewrite <- (sqrt_sqrt v) at 2 by lra. rewrite ln_mult by assumption. lra.
Qed.
Lemma mvn_one m v : 0 < v -> exists f, mvn 1 [fin_r m] [[fin_r v]] = Ok f /\ forall x, f x = normal_log_density m v (nth 0 x 0).
Proof.
  intros Hv. unfold mvn. cbn [forallb is_fin andb]. replace (symmetric 1 (entry [[fin_r v]])) with true.
  2:{ unfold symmetric. cbn. destruct (Req_EM_T v v); [reflexivity|congruence]. }
  unfold fin_r. cbn [is_fin andb chol]. unfold chol_column. cbn [sumn entry nth fval].
  assert (E : v - 0 = v) by ring. unfold entry. cbn [nth fval fin_r]. rewrite E. destruct (Rlt_dec 0 v); [|contradiction].
  eexists. split; [reflexivity|]. intros x. cbn [forward_solve sumn nth Nat.eqb Nat.ltb Nat.leb fval].
  assert (P : 0 < sqrt v) by now apply sqrt_lt_R0. assert (Q : sqrt v * sqrt v = v) by (apply sqrt_sqrt; lra).
  pose proof PI_RGT_0. unfold normal_log_density. assert (P2 : 0 < 2 * PI) by lra. rewrite (ln_sqrt_half v), (ln_sqrt_half (2 * PI * v)), (ln_mult (2 * PI) v) by (auto using Rmult_lt_0_compat).
  replace ((0 + ((nth 0 x 0 - m - 0) / sqrt v) ^ 2)) with ((nth 0 x 0 - m) ^ 2 / v). 2:{ rewrite <- Q at 1. field. lra. }
  cbn [INR]. field. lra.
Qed.
Lemma mvn_one_refused m v : v <= 0 -> mvn 1 [fin_r m] [[fin_r v]] = Err ValueError.
Proof.
  intros Hv. unfold mvn. cbn [chol]. unfold chol_column, entry. cbn [nth fval fin_r sumn].
  destruct (_ && _)%bool; [|reflexivity]. destruct (Rlt_dec 0 (v - 0)); [lra|reflexivity].
Qed.

Section OneFeature.
  Variables (g : gmm) (cs : list comp) (data : list (list R)).
  Hypothesis HX : gmix g cs.
  Hypothesis Hd : exists x y, In x data /\ In y data /\ nth 0 x 0 <> nth 0 y 0.
  Lemma data_nonempty : data <> [].
  Proof. destruct Hd as (x & _ & Hx & _). intros E. rewrite E in Hx. destruct Hx. Qed.
  Lemma wcov_pos c : In c cs -> 0 < wcov cs data c 0 0.
  Proof.
    intros Hc. pose proof (mass_pos g cs HX data data_nonempty c Hc) as P. unfold wcov. apply Rdiv_lt_0_compat; [|exact P].
    set (m := wmean cs data c 0).
    assert (E : exists x, In x data /\ nth 0 x 0 <> m).
    { destruct Hd as (x & y & Hx & Hy & Hxy). destruct (Req_dec (nth 0 x 0) m) as [E|E]; [|now exists x]. exists y. split; [exact Hy|]. congruence. }
    destruct E as (x & Hx & Hne). apply in_split in Hx as (l1 & l2 & El).
    assert (T : forall y, 0 <= resp cs c y * ((nth 0 y 0 - m) * (nth 0 y 0 - m))).
    { intros y. pose proof (resp_pos g cs HX c y Hc). apply Rmult_le_pos; [lra|]. apply Rle_0_sqr. }
    assert (G : forall l, 0 <= rsum (map (fun y => resp cs c y * ((nth 0 y 0 - m) * (nth 0 y 0 - m))) l)).
    { induction l as [|y l IH]; cbn [map rsum]; [lra|]. specialize (T y). lra. }
    assert (PX : 0 < resp cs c x * ((nth 0 x 0 - m) * (nth 0 x 0 - m))).
    { pose proof (resp_pos g cs HX c x Hc). apply Rmult_lt_0_compat; [lra|]. assert (nth 0 x 0 - m <> 0) by lra. nra. }
    rewrite El at 1. rewrite map_app, rsum_app. cbn [map rsum]. pose proof (G l1). pose proof (G l2). lra.
  Qed.
End OneFeature.
(** Every component has one finite mean and one positive variance. *)
Definition plain (g : gmm) := shaped g /\ g_features g = 1%nat /\
  Forall (fun m => exists x, m = [fin_r x]) (g_means g) /\ Forall (fun c => exists v, 0 < v /\ c = [[fin_r v]]) (g_covs g).
Lemma plain_densities g : plain g -> exists fs, densities g = Ok fs.
Proof.
  intros (HS & HF & HM & HC). unfold densities. rewrite HF. clear HS HF. revert HC. generalize (g_covs g). induction HM as [|m ms (x & ->) _ IH]; intros cl HC; [now exists []|].
  destruct HC as [|c cl (v & Hv & ->) HC]; [now exists []|]. cbn [combine mapM fst snd]. destruct (mvn_one x v Hv) as (f & -> & _).
  destruct (IH cl HC) as (fs & ->). cbn. eauto.
Qed.
Lemma plain_next g cs data : gmix g cs -> plain g -> (exists x y, In x data /\ In y data /\ nth 0 x 0 <> nth 0 y 0) -> plain (next g cs data).
Proof.
  intros HX (HS & HF & HM & HC) Hd. split; [apply next_shaped; auto; now apply data_nonempty|]. unfold next. cbn [g_features g_means g_covs]. rewrite HF. split; [reflexivity|]. cbn [seq map].
  split; apply Forall_map, Forall_forall; intros c Hc; [eauto|]. eexists. split; [|reflexivity]. now apply (wcov_pos g).
Qed.
Lemma plain_em g0 data : plain g0 -> (exists x y, In x data /\ In y data /\ nth 0 x 0 <> nth 0 y 0) -> forall n, exists g, em n g0 data = Ok g /\ plain g.
Proof.
  intros HP Hd n. induction n as [|n (g & Hg & Pg)]; [exists g0; auto|]. cbn [em]. rewrite Hg. cbn [bind].
  destruct (plain_densities g Pg) as [fs Hfs]. destruct (mixture_of g fs (proj1 Pg) Hfs) as (cs & HX & _).
  rewrite (em_step_form g cs HX data (data_nonempty data Hd)). eexists. split; [reflexivity|]. now apply plain_next.
Qed.
Lemma plain_new start k g : gmm_new start k 1 = Ok g -> length start = Z.to_nat k -> Forall (fun r => length r = 1%nat) start -> plain g.
Proof.
  intros HG HL HW. split; [now apply (new_shaped start k 1)|]. unfold gmm_new in HG. destruct (k <? 1)%Z; [discriminate|]. cbn [Z.ltb Z.compare Pos.compare Pos.compare_cont] in HG.
  apply ok_inj in HG. subst g. cbn [g_features g_means g_covs]. split; [reflexivity|]. split.
  - apply Forall_map. eapply Forall_impl; [|exact HW]. cbv beta. intros [|x [|y r]] Hr; try discriminate. exists x. reflexivity.
  - apply Forall_forall. intros c Hc. apply repeat_spec in Hc. subst c. exists 1. split; [lra|]. reflexivity.
Qed.

(** The reachable states. *)
Lemma reach_gmix start k d g0 data n g : gmm_new start k d = Ok g0 -> length start = Z.to_nat k -> data <> [] -> em n g0 data = Ok g ->
  shaped g /\ g_features g = Z.to_nat d /\ g_components g = Z.to_nat k.
Proof.
  intros HG HL HN HE. destruct (new_shaped _ _ _ _ HG HL) as (HS & _ & HF & _). destruct (em_shaped _ _ HN HS _ _ HE) as (S1 & F1 & C1).
  split; [exact S1|]. split; [congruence|]. rewrite C1. unfold gmm_new in HG. destruct (k <? 1)%Z; [discriminate|]. destruct (d <? 1)%Z; [discriminate|].
  apply ok_inj in HG. subst g0. unfold g_components. cbn [g_weights]. apply repeat_length.
Qed.
Lemma gmix_components g cs : gmix g cs -> length cs = g_components g.
Proof. intros (HW & _). unfold g_components. now rewrite HW, map_length. Qed.
Lemma wsum_map c cs f data : wsum (map (resp cs c) data) f data = rsum (map (fun x => resp cs c x * f x) data).
Proof. unfold wsum. rewrite <- (map_id data) at 2. now rewrite zip_with_maps. Qed.
Lemma nth_map_resp cs data n : (n < length data)%nat ->
  rsum (map (fun r => nth n r 0) (map (fun c => map (resp cs c) data) cs)) = rsum (map (fun c => resp cs c (nth n data [])) cs).
Proof.
  intros Hn. rewrite map_map. f_equal. apply map_ext. intros c. rewrite (nth_indep _ 0 (resp cs c [])) by now rewrite map_length. apply map_nth.
Qed.
