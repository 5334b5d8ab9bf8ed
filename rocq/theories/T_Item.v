(** Property C108: the equations that fitted item parameters satisfy. *)
From Verif Require Import Base BaseFacts RBase RFacts M_Data M_Logit M_Lik M_Est M_Opt M_Jml P_Logit P_Logit2 P_Lik5 P_Est2 P_Opt1 P_Opt2 P_Opt3 P_Scoreq P_Item1 P_Item2 P_Item3 S_Logit S_Lik S_Est S_Opt S_Item.
Import List.
Local Open Scope R_scope.

(** Joint maximum likelihood.  The derivative of the loss in a parameter is the expected minus the observed effect; for
    given scores, parameters have the lowest loss exactly when these agree for every parameter; and two such sets of
    parameters give the same probabilities wherever somebody answered. *)
Theorem C108_jml : forall F data thetas,
  parametric F -> legal_data (f_cats F) data -> length thetas = length data -> Forall (fun t => length t = f_lv F) thetas ->
  let loss m := jml_loss m (Wide (length (f_cats F)) data) thetas in
  let observed e := sumn (length data) (fun r => observed_effect (f_effect F (nth r thetas []) e) (nth r data [])) in
  let expected v e := sumn (length data) (fun r => expected_effect (f_effect F (nth r thetas []) e) (f_p F v (nth r thetas [])) (f_cats F) (nth r data [])) in
  (exists L, (forall v, length v = f_params F -> loss (f_model F v) = Ok (Some (Fin (L v)))) /\
     forall v e, length v = f_params F -> (e < f_params F)%nat -> derivable_pt_lim (fun x => L (upd e x v)) (nth e v 0) (expected v e - observed e)) /\
  (forall v, length v = f_params F -> (lowest_loss F loss v <-> forall e, (e < f_params F)%nat -> observed e = expected v e)) /\
  forall v v', length v = f_params F -> length v' = f_params F -> lowest_loss F loss v -> lowest_loss F loss v' ->
    forall r i k, (r < length data)%nat -> answer (nth i (nth r data []) None) <> None -> (k < nth i (f_cats F) O)%nat -> f_p F v' (nth r thetas []) i k = f_p F v (nth r thetas []) i k.
Proof.
  intros F data thetas HF HD HL HT loss observed expected.
  assert (HV : forall v, length v = f_params F -> loss (f_model F v) = Ok (Some (Fin (- joint F data thetas v)))) by (intros; now apply jml_value).
  assert (ED : forall v e, sumn (length data) (fun r => discrepancy F (nth r data []) (nth r thetas []) v e) = observed e - expected v e) by (intros v e; unfold observed, expected; rewrite <- sumn_minus; reflexivity).
  split; [|split].
  - exists (fun v => - joint F data thetas v). split; [exact HV|]. intros v e Lv He. replace (expected v e - observed e) with (- sumn (length data) (fun r => discrepancy F (nth r data []) (nth r thetas []) v e)) by (rewrite ED; ring).
    apply (derivable_pt_lim_opp (fun x => joint F data thetas (upd e x v))). exact (joint_partial F HF data thetas HD HL HT v e Lv He).
  - intros v Lv. rewrite (lowest_minimum F loss _ v Lv HV), (joint_minimum F HF data thetas HD HL HT v Lv). split; intros H e He; specialize (H e He); rewrite ED in *; lra.
  - intros v v' Lv Lv' H1 H2 r i k Hr Ha Hk. rewrite (lowest_minimum F loss _ _ Lv HV) in H1. rewrite (lowest_minimum F loss _ _ Lv' HV) in H2.
    exact (joint_unique F HF data thetas HD HL HT v v' Lv Lv' H1 H2 r Hr i k Ha Hk).
Qed.
Print Assumptions C108_jml.

(** At the lowest loss the number of respondents giving each answer to an item is the number the model expects among
    those who answered it. *)
Theorem C108_jml_counts : forall F data thetas v i k,
  parametric F -> legal_data (f_cats F) data -> length thetas = length data -> Forall (fun t => length t = f_lv F) thetas -> length v = f_params F ->
  lowest_loss F (fun m => jml_loss m (Wide (length (f_cats F)) data) thetas) v -> (i < length (f_cats F))%nat -> (k < nth i (f_cats F) O)%nat ->
  answered_count data i k = over_answered data i (fun r => f_p F v (nth r thetas []) i k).
Proof.
  intros F data thetas v i k HF HD HL HT Lv HM Hi Hk.
  rewrite (lowest_minimum F _ _ v Lv (jml_value F HF data thetas HD HL HT)), (joint_minimum F HF data thetas HD HL HT v Lv) in HM.
  destruct (counting_exists F i k HF Hk) as (c & delta & HC). pose proof (combine_equations _ (fun e => nth e c 0) _ HM) as Q. cbv beta in Q. rewrite combine_swap in Q.
  apply Rminus_diag_uniq. etransitivity; [|exact Q]. unfold answered_count, over_answered. rewrite <- sumn_minus. apply sumn_ext. intros r Hr. destruct (row_legal F data thetas HD HL HT r Hr) as [H1 H2].
  rewrite (count_row F i k c delta) by (auto; rewrite (proj1 H1); exact Hi). destruct (answer (nth i (nth r data []) None)); [reflexivity|ring].
Qed.
Print Assumptions C108_jml_counts.

(** 2PL and GPC: at the lowest loss the item scores weighted by a latent variable that the item loads on add up to what
    the model expects. *)
Theorem C108_jml_slopes : forall F free data thetas v i d,
  ((exists nanl lv, F = tpl_family nanl lv free) \/ (exists nanl cats lv, F = gpc_family nanl cats lv free)) ->
  parametric F -> legal_data (f_cats F) data -> length thetas = length data -> Forall (fun t => length t = f_lv F) thetas -> length v = f_params F ->
  lowest_loss F (fun m => jml_loss m (Wide (length (f_cats F)) data) thetas) v -> (i < length (f_cats F))%nat -> Forall (fun r => length r = f_lv F) free -> nth d (nth i free []) false = true ->
  sumn (length data) (fun r => nth d (nth r thetas []) 0 * item_score (nth r data []) i) =
  over_answered data i (fun r => nth d (nth r thetas []) 0 * sumn (nth i (f_cats F) O) (fun k => INR k * f_p F v (nth r thetas []) i k)).
Proof.
  intros F free data thetas v i d HC HF HD HL HT Lv HM Hi Hfree Hd.
  rewrite (lowest_minimum F _ _ v Lv (jml_value F HF data thetas HD HL HT)), (joint_minimum F HF data thetas HD HL HT v Lv) in HM.
  assert (HS : exists c, slope_direction F i d c) by (destruct HC as [(nanl & lv & ->)|(nanl & cats & lv & ->)]; [now apply slope_tpl|now apply slope_gpc]).
  destruct HS as (c & HS). pose proof (combine_equations _ (fun e => nth e c 0) _ HM) as Q. cbv beta in Q. rewrite combine_swap in Q.
  apply Rminus_diag_uniq. etransitivity; [|exact Q]. unfold over_answered. rewrite <- sumn_minus. apply sumn_ext. intros r Hr. destruct (row_legal F data thetas HD HL HT r Hr) as [H1 H2].
  rewrite (slope_row F i d c) by (auto; rewrite (proj1 H1); exact Hi). unfold item_score. destruct (answer (nth i (nth r data []) None)); [symmetry; apply Rmult_minus_distr_l|ring].
Qed.
Print Assumptions C108_jml_slopes.

(** Marginal maximum likelihood.  The derivative of the loss is the expected minus the observed effect, averaged over the
    posterior distribution of each respondent on the quadrature points; at the lowest loss they agree. *)
Theorem C108_mml : forall F data points weights,
  parametric F -> legal_data (f_cats F) data -> points <> [] -> length weights = length points -> Forall (fun t => length t = f_lv F) points -> Forall (fun w => 0 < w) weights ->
  let loss m := mml_loss m points (map (fun w => Some (Fin (ln w))) weights) (Wide (length (f_cats F)) data) in
  let averaged v (g : list R -> list cell -> R) := sumn (length data) (fun r => sumn (length points) (fun q => posterior_weight (f_p F v) points weights (nth r data []) q * g (nth q points []) (nth r data []))) in
  let observed v e := averaged v (fun t row => observed_effect (f_effect F t e) row) in
  let expected v e := averaged v (fun t row => expected_effect (f_effect F t e) (f_p F v t) (f_cats F) row) in
  (forall v row, length v = f_params F -> legal_row (f_cats F) row -> (forall q, (q < length points)%nat -> 0 < posterior_weight (f_p F v) points weights row q) /\ sumn (length points) (posterior_weight (f_p F v) points weights row) = 1) /\
  (exists L, (forall v, length v = f_params F -> loss (f_model F v) = Ok (Some (Fin (L v)))) /\
     forall v e, length v = f_params F -> (e < f_params F)%nat -> derivable_pt_lim (fun x => L (upd e x v)) (nth e v 0) (expected v e - observed v e)) /\
  forall v, length v = f_params F -> lowest_loss F loss v -> forall e, (e < f_params F)%nat -> observed v e = expected v e.
Proof.
  intros F data points weights HF HD HP HL HT HW loss averaged observed expected.
  assert (HV : forall v, length v = f_params F -> loss (f_model F v) = Ok (Some (Fin (marginal_loss F data points weights v)))) by (intros; now apply mml_value).
  assert (ED : forall v e, sumn (length data) (fun r => sumn (length points) (fun q => posterior_weight (f_p F v) points weights (nth r data []) q * discrepancy F (nth r data []) (nth q points []) v e)) = observed v e - expected v e).
  { intros v e. unfold observed, expected, averaged. rewrite <- sumn_minus. apply sumn_ext. intros r _. rewrite <- sumn_minus. apply sumn_ext. intros q _. unfold discrepancy. rewrite Rmult_minus_distr_l. reflexivity. }
  split; [|split].
  - intros v row Lv Hr. now apply (posterior_sum F HF points weights HP HL HT HW).
  - exists (marginal_loss F data points weights). split; [exact HV|]. intros v e Lv He. replace (expected v e - observed v e) with (- (observed v e - expected v e)) by ring. rewrite <- ED.
    exact (marginal_loss_partial F HF data points weights HD HP HL HT HW v e Lv He).
  - intros v Lv HM e He. rewrite (lowest_minimum F loss _ v Lv HV) in HM. pose proof (marginal_stationary F HF data points weights HD HP HL HT HW v Lv HM e He) as Q. rewrite ED in Q. lra.
Qed.
Print Assumptions C108_mml.

(** At the lowest loss the number of respondents giving each answer is the one expected under the posteriors of those who
    answered the item. *)
Theorem C108_mml_counts : forall F data points weights v i k,
  parametric F -> legal_data (f_cats F) data -> points <> [] -> length weights = length points -> Forall (fun t => length t = f_lv F) points -> Forall (fun w => 0 < w) weights -> length v = f_params F ->
  lowest_loss F (fun m => mml_loss m points (map (fun w => Some (Fin (ln w))) weights) (Wide (length (f_cats F)) data)) v -> (i < length (f_cats F))%nat -> (k < nth i (f_cats F) O)%nat ->
  answered_count data i k = over_answered data i (fun r => sumn (length points) (fun q => posterior_weight (f_p F v) points weights (nth r data []) q * f_p F v (nth q points []) i k)).
Proof.
  intros F data points weights v i k HF HD HP HL HT HW Lv HM Hi Hk.
  rewrite (lowest_minimum F _ _ v Lv (mml_value F HF data points weights HD HP HL HT HW)) in HM. pose proof (marginal_stationary F HF data points weights HD HP HL HT HW v Lv HM) as HS.
  destruct (counting_exists F i k HF Hk) as (c & delta & HC). pose proof (combine_equations _ (fun e => nth e c 0) _ HS) as Q. cbv beta in Q. rewrite combine_swap in Q.
  apply Rminus_diag_uniq. etransitivity; [|exact Q]. unfold answered_count, over_answered. rewrite <- sumn_minus. apply sumn_ext. intros r Hr. pose proof (mml_row_legal F data HD r Hr) as H1.
  rewrite combine_swap. destruct (posterior_sum F HF points weights HP HL HT HW (nth r data []) v Lv H1) as [_ H1s].
  rewrite (sumn_ext (length points) (fun q => sumn (f_params F) _) (fun q => posterior_weight (f_p F v) points weights (nth r data []) q * match answer (nth i (nth r data []) None) with Some j => (if (j =? k)%nat then 1 else 0) - f_p F v (nth q points []) i k | None => 0 end)).
  - destruct (answer (nth i (nth r data []) None)) as [j|].
    + rewrite (sumn_ext (length points) (fun q => _ * (_ - _)) (fun q => posterior_weight (f_p F v) points weights (nth r data []) q * (if (j =? k)%nat then 1 else 0) - posterior_weight (f_p F v) points weights (nth r data []) q * f_p F v (nth q points []) i k)) by (intros; ring).
      rewrite sumn_minus, sumn_scal_r, H1s, Rmult_1_l. reflexivity.
    + rewrite (sumn_ext (length points) _ (fun _ => 0)) by (intros; ring). rewrite sumn_0. ring.
  - intros q Hq. destruct (point_legal F points weights HL HT HW q Hq) as [H2 _]. rewrite <- (count_row F i k c delta (nth r data []) (nth q points []) v HF HC Lv H2 H1 ltac:(rewrite (proj1 H1); exact Hi) Hk). rewrite <- sumn_scal. apply sumn_ext. intros; ring.
Qed.
Print Assumptions C108_mml_counts.

(** 2PL and GPC under marginal maximum likelihood: the equations of the slopes. *)
Theorem C108_mml_slopes : forall F free data points weights v i d,
  ((exists nanl lv, F = tpl_family nanl lv free) \/ (exists nanl cats lv, F = gpc_family nanl cats lv free)) ->
  parametric F -> legal_data (f_cats F) data -> points <> [] -> length weights = length points -> Forall (fun t => length t = f_lv F) points -> Forall (fun w => 0 < w) weights -> length v = f_params F ->
  lowest_loss F (fun m => mml_loss m points (map (fun w => Some (Fin (ln w))) weights) (Wide (length (f_cats F)) data)) v -> (i < length (f_cats F))%nat -> Forall (fun r => length r = f_lv F) free -> nth d (nth i free []) false = true ->
  let post r q := posterior_weight (f_p F v) points weights (nth r data []) q in
  sumn (length data) (fun r => sumn (length points) (fun q => post r q * nth d (nth q points []) 0) * item_score (nth r data []) i) =
  over_answered data i (fun r => sumn (length points) (fun q => post r q * nth d (nth q points []) 0 * sumn (nth i (f_cats F) O) (fun k => INR k * f_p F v (nth q points []) i k))).
Proof.
  intros F free data points weights v i d HC HF HD HP HL HT HW Lv HM Hi Hfree Hd post.
  rewrite (lowest_minimum F _ _ v Lv (mml_value F HF data points weights HD HP HL HT HW)) in HM. pose proof (marginal_stationary F HF data points weights HD HP HL HT HW v Lv HM) as HS.
  assert (HX : exists c, slope_direction F i d c) by (destruct HC as [(nanl & lv & ->)|(nanl & cats & lv & ->)]; [now apply slope_tpl|now apply slope_gpc]).
  destruct HX as (c & HX). pose proof (combine_equations _ (fun e => nth e c 0) _ HS) as Q. cbv beta in Q. rewrite combine_swap in Q.
  apply Rminus_diag_uniq. etransitivity; [|exact Q]. unfold over_answered. rewrite <- sumn_minus. apply sumn_ext. intros r Hr. pose proof (mml_row_legal F data HD r Hr) as H1. rewrite (combine_swap (f_params F) (length points)).
  rewrite (sumn_ext (length points) (fun q => sumn (f_params F) _) (fun q => post r q * match answer (nth i (nth r data []) None) with Some j => nth d (nth q points []) 0 * (INR j - sumn (nth i (f_cats F) O) (fun k => INR k * f_p F v (nth q points []) i k)) | None => 0 end)).
  - unfold item_score. destruct (answer (nth i (nth r data []) None)) as [j|].
    + rewrite <- sumn_scal_r, <- sumn_minus. apply sumn_ext. intros q _. rewrite Rmult_assoc, (Rmult_assoc (post r q)), <- Rmult_minus_distr_l. f_equal. symmetry. apply Rmult_minus_distr_l.
    + rewrite (sumn_ext (length points) (fun q => post r q * 0) (fun _ => 0)) by (intros; ring). rewrite sumn_0. ring.
  - intros q Hq. destruct (point_legal F points weights HL HT HW q Hq) as [H2 _]. rewrite <- (slope_row F i d c (nth r data []) (nth q points []) v HF HX Lv H2 H1 ltac:(rewrite (proj1 H1); exact Hi)). rewrite <- sumn_scal. apply sumn_ext. intros e _. unfold post. ring.
Qed.
Print Assumptions C108_mml_slopes.
(** One 2PL item; three respondents at ln 2 of whom two are right and three at -ln 2 of whom one is right; slope 1 and
    intercept 0 have the lowest loss. *)
Definition it_family := tpl_family 0 1 [[true]].
Definition it_data : list (list cell) := [[Some 1]; [Some 1]; [Some 0]; [Some 1]; [Some 0]; [Some 0]]%Z.
Definition it_thetas : list (list R) := [[ln 2]; [ln 2]; [ln 2]; [- ln 2]; [- ln 2]; [- ln 2]].
Lemma it_parametric : parametric it_family.
Proof. apply par_tpl; cbn; [lia|lia|repeat constructor]. Qed.
Lemma it_p v x k : f_p it_family v [x] 0 k = if (k =? 1)%nat then logistic (nth 0 v 0 * x + nth 1 v 0) else 1 - logistic (nth 0 v 0 * x + nth 1 v 0).
Proof.
  cbn [it_family tpl_family f_p]. unfold tpl_p. cbv zeta.
  assert (E : predictor (tpl_lv (tpl_of 1 [[true]] v)) (slope (tpl_free (tpl_of 1 [[true]] v)) (tpl_w (tpl_of 1 [[true]] v)) 0) [x] + nth 0 (tpl_b (tpl_of 1 [[true]] v)) 0 = nth 0 v 0 * x + nth 1 v 0).
  { unfold tpl_of. cbn [tpl_lv tpl_free tpl_w tpl_b]. change (ctrue (concat [[true]])) with 1%nat. unfold predictor, slope. cbn [sumn nth firstn concat]. change (ctrue [] + ctrue [])%nat with 0%nat. destruct v as [|a [|b v]]; cbn [nth skipn firstn]; ring. }
  now rewrite E.
Qed.
Lemma it_legal c : c = Some 1%Z \/ c = Some 0%Z -> legal_row (f_cats it_family) [c].
Proof. intro H. split; [reflexivity|]. intros [|i] d E; cbn in E; [|destruct i; discriminate]. injection E as <-. right; right. destruct H as [-> | ->]; [exists 1%nat|exists 0%nat]; cbn; split; auto. Qed.
Lemma it_data_legal : legal_data (f_cats it_family) it_data.
Proof. unfold legal_data, it_data. repeat (constructor; [apply it_legal; auto|]). constructor. Qed.
Lemma it_effect x k : f_effect it_family [x] 0 0 k = INR k * x /\ f_effect it_family [x] 1 0 k = INR k.
Proof.
  cbn [it_family tpl_family f_effect]. change (ctrue (concat [[true]]) + length [[true]])%nat with 2%nat. unfold tpl_of. cbn [tpl_w tpl_b]. change (ctrue (concat [[true]])) with 1%nat.
  unfold predictor, slope. cbn [sumn nth firstn concat]. change (ctrue [] + ctrue [])%nat with 0%nat. unfold unit_vector. cbn [seq map firstn skipn nth Nat.eqb]. split; ring.
Qed.
Lemma it_logistic : logistic (1 * ln 2 + 0) = 2 / 3 /\ logistic (1 * - ln 2 + 0) = 1 / 3.
Proof. rewrite !Rmult_1_l, !Rplus_0_r. unfold logistic. rewrite Ropp_involutive, exp_Ropp, exp_ln by lra. split; field. Qed.
Lemma it_observed e x c : observed_effect (f_effect it_family [x] e) [c] = match answer c with Some k => f_effect it_family [x] e 0 k | None => 0 end.
Proof. unfold observed_effect. cbn [length sumn nth]. ring. Qed.
Lemma it_expected e x c : answer c <> None -> expected_effect (f_effect it_family [x] e) (f_p it_family [1; 0] [x]) (f_cats it_family) [c] = f_effect it_family [x] e 0 0 * (1 - logistic (1 * x + 0)) + f_effect it_family [x] e 0 1 * logistic (1 * x + 0).
Proof. intro H. unfold expected_effect. cbn [length sumn nth]. destruct (answer c); [|congruence]. change (nth 0 (f_cats it_family) 0%nat) with 2%nat. cbn [sumn]. rewrite !it_p. cbn [Nat.eqb nth]. ring. Qed.
Example C108_jml_nonvacuous :
  lowest_loss it_family (fun m => jml_loss m (Wide (length (f_cats it_family)) it_data) it_thetas) [1; 0] /\
  answered_count it_data 0 1 = 3 /\ over_answered it_data 0 (fun r => f_p it_family [1; 0] (nth r it_thetas []) 0 1) = 3 /\
  sumn (length it_data) (fun r => nth 0 (nth r it_thetas []) 0 * item_score (nth r it_data []) 0) = ln 2.
Proof.
  assert (LT : Forall (fun t => length t = f_lv it_family) it_thetas) by (repeat constructor).
  assert (A1 : answer (Some 1%Z) = Some 1%nat) by reflexivity. assert (A0 : answer (Some 0%Z) = Some 0%nat) by reflexivity. destruct it_logistic as [L1 L2].
  assert (HM : lowest_loss it_family (fun m => jml_loss m (Wide (length (f_cats it_family)) it_data) it_thetas) [1; 0]).
  { apply (proj1 (proj2 (C108_jml it_family it_data it_thetas it_parametric it_data_legal eq_refl LT)) [1; 0] eq_refl). intros e He. cbn [it_data it_thetas length sumn nth]. rewrite !it_observed, !A1, !A0, !it_expected by (rewrite ?A1, ?A0; discriminate). rewrite L1, L2.
    assert (E : e = 0%nat \/ e = 1%nat) by (change (f_params it_family) with 2%nat in He; lia).
    destruct (it_effect (ln 2) 0) as [E1 E2]. destruct (it_effect (ln 2) 1) as [E3 E4]. destruct (it_effect (- ln 2) 0) as [E5 E6]. destruct (it_effect (- ln 2) 1) as [E7 E8].
    destruct E as [-> | ->]; [rewrite E1, E3, E5, E7|rewrite E2, E4, E6, E8]; cbn [INR]; field. }
  assert (EC : answered_count it_data 0 1 = 3) by (unfold answered_count; cbn [it_data length sumn nth]; rewrite !A1, !A0; cbn [Nat.eqb]; ring).
  split; [exact HM|]. split; [exact EC|]. split.
  - rewrite <- EC. symmetry. apply (C108_jml_counts it_family it_data it_thetas [1; 0] 0 1 it_parametric it_data_legal eq_refl LT eq_refl HM); cbn; lia.
  - cbn [it_data it_thetas length sumn nth]. unfold item_score. cbn [nth]. rewrite !A1, !A0. cbn [INR]. ring.
Qed.
(** Two respondents, quadrature points ln 2 and -ln 2. *)
Definition it_points : list (list R) := [[ln 2]; [- ln 2]].
Definition it_weights : list R := [/ 2; / 2].
Lemma it_marginal v : marginal_in it_family it_points it_weights [Some 0%Z] v = 1 - marginal_in it_family it_points it_weights [Some 1%Z] v.
Proof.
  unfold marginal_in, likelihood_in, likelihood. cbn [it_points it_weights length sumn nth mapi mapi_from rprod]. assert (A1 : answer (Some 1%Z) = Some 1%nat) by reflexivity. assert (A0 : answer (Some 0%Z) = Some 0%nat) by reflexivity. rewrite !A1, !A0, !it_p. cbn [Nat.eqb]. field.
Qed.
Example C108_mml_nonvacuous :
  lowest_loss it_family (fun m => mml_loss m it_points (map (fun w => Some (Fin (ln w))) it_weights) (Wide (length (f_cats it_family)) [[Some 1%Z]; [Some 0%Z]])) [1; 0] /\
  answered_count [[Some 1%Z]; [Some 0%Z]] 0 1 = 1.
Proof.
  assert (A1 : answer (Some 1%Z) = Some 1%nat) by reflexivity. assert (A0 : answer (Some 0%Z) = Some 0%nat) by reflexivity. destruct it_logistic as [L1 L2].
  assert (LT : Forall (fun t => length t = f_lv it_family) it_points) by (repeat constructor). assert (LW : Forall (fun w => 0 < w) it_weights) by (repeat constructor; lra).
  assert (HD : legal_data (f_cats it_family) [[Some 1%Z]; [Some 0%Z]]) by (repeat (constructor; [apply it_legal; auto|]); constructor).
  split; [|unfold answered_count; cbn [length sumn nth]; rewrite A1, A0; cbn [Nat.eqb]; ring].
  rewrite (lowest_minimum it_family _ _ [1; 0] eq_refl (mml_value it_family it_parametric [[Some 1%Z]; [Some 0%Z]] it_points it_weights HD ltac:(discriminate) eq_refl LT LW)).
  intros v Lv. unfold marginal_loss. cbn [length sumn nth].
  assert (PV : forall c v, c = Some 1%Z \/ c = Some 0%Z -> length v = f_params it_family -> 0 < marginal_in it_family it_points it_weights [c] v) by (intros c u Hc Lu; apply (marginal_pos it_family it_parametric it_points it_weights ltac:(discriminate) eq_refl LT LW); [exact Lu|now apply it_legal]).
  assert (E : marginal_in it_family it_points it_weights [Some 1%Z] [1; 0] = / 2).
  { unfold marginal_in, likelihood_in, likelihood. cbn [it_points it_weights length sumn nth mapi mapi_from rprod]. rewrite A1, !it_p. cbn [Nat.eqb nth]. rewrite L1, L2. field. }
  pose proof (PV (Some 1%Z) v (or_introl eq_refl) Lv) as P1. pose proof (PV (Some 0%Z) v (or_intror eq_refl) Lv) as P0. rewrite it_marginal in P0. rewrite !it_marginal, E. set (m := marginal_in it_family it_points it_weights [Some 1%Z] v) in *.
  replace (1 - / 2) with (/ 2) by field. assert (Q : ln m + ln (1 - m) <= ln (/ 2) + ln (/ 2)); [|lra]. rewrite <- !ln_mult by lra. assert (0 < m * (1 - m)) by now apply Rmult_lt_0_compat.
  assert (S : m * (1 - m) <= / 2 * / 2) by (pose proof (Rle_0_sqr (m - / 2)) as S; unfold Rsqr in S; lra). destruct S as [S|S]; [left; now apply ln_increasing|rewrite S; lra].
Qed.
