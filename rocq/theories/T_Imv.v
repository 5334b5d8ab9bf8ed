(** The InterModel Vigorish: C127. *)
From Verif Require Import Base BaseFacts RBase RFacts M_Logit M_Mono M_Lik M_Est M_Stat S_Stat P_Stat3 P_Stat7 P_Imv.
Local Open Scope R_scope.

(** Expected log-likelihood of a coin with weight [c]. *)
Definition coin_likelihood (c : R) : R := c * ln c + (1 - c) * ln (1 - c).
Definition least : R := 500001 / 1000000.
Definition most : R := 999999 / 1000000.
Lemma least_lo : least = imv_lo. Proof. unfold least, imv_lo. lra. Qed.
Lemma most_hi : most = imv_hi. Proof. unfold most, imv_hi. lra. Qed.
(** With 24 iterations or more (the default is 100) every weight has the log-likelihood it was asked for up to 2e-6, or the
    nearest one available. *)
Theorem C127_weights : forall n es j l, (24 <= n)%nat -> nth_error es j = Some (Some (Fin l)) ->
  exists w, nth_error (imv_newton_raphson n es) j = Some (Some w) /\ least <= w <= most /\
    (coin_likelihood least <= l <= coin_likelihood most -> l <= coin_likelihood w <= l + 2 / 1000000) /\
    (l <= coin_likelihood least -> coin_likelihood w <= coin_likelihood least + 2 / 1000000) /\
    (coin_likelihood most <= l -> w = most).
Proof.
  intros n es j l N He. destruct (newton_accurate n es j (Fin l) N He) as (w & E & R & A). exists w. split; [exact E|]. rewrite least_lo, most_hi. split; [exact R|].
  change coin_likelihood with coin. pose proof lo_half. pose proof hi_one. pose proof coin_order. split; [|split].
  - intros [L1 L2]. cbn [aim] in A. rewrite Rmax_left, Rmin_left in A by lra. exact A.
  - intros L. rewrite aim_low in A by exact L. lra.
  - intros L. rewrite aim_high in A by exact L. pose proof (coin_tangent imv_hi w ltac:(lra) ltac:(lra)) as T. pose proof (slope_pos w ltac:(lra)). apply Rle_antisym; [apply R|]. apply Rnot_lt_le. intro X.
    assert (0 < slope w * (imv_hi - w)) by (apply Rmult_lt_0_compat; lra). lra.
Qed.
Print Assumptions C127_weights.
(** The weight of the coin itself. *)
Theorem C127_root : forall n es j c, (24 <= n)%nat -> least <= c <= most -> nth_error es j = Some (Some (Fin (coin_likelihood c))) ->
  exists w, nth_error (imv_newton_raphson n es) j = Some (Some w) /\ c <= w /\ (w - c) * ln (c / (1 - c)) <= 2 / 1000000.
Proof.
  intros n es j c N Hc He. destruct (C127_weights n es j _ N He) as (w & E & R & A & _). exists w. split; [exact E|]. rewrite least_lo, most_hi in *. change coin_likelihood with coin in *.
  pose proof lo_half. pose proof hi_one. destruct A as [A1 A2]; [split; apply coin_mono; lra|]. split.
  - apply Rnot_lt_le. intro X. pose proof (coin_tangent c w ltac:(lra) ltac:(lra)) as T. pose proof (slope_pos w ltac:(lra)). assert (0 < slope w * (c - w)) by (apply Rmult_lt_0_compat; lra). lra.
  - pose proof (coin_tangent w c ltac:(lra) ltac:(lra)) as T. rewrite ln_quot by lra. fold (slope c). lra.
Qed.
Print Assumptions C127_root.
(** imv is the relative gain in weight. *)
Theorem C127_value : forall n c1 c2, (24 <= n)%nat -> 3 / 5 <= c1 <= most -> 3 / 5 <= c2 <= most ->
  exists v, imv n (Some (Fin (coin_likelihood c1))) (Some (Fin (coin_likelihood c2))) = Some v /\ Rabs (v - (c2 - c1) / c1) <= 3 / 100000.
Proof.
  intros n c1 c2 N H1 H2. assert (Lm : least <= 3 / 5) by (unfold least; lra).
  destruct (C127_root n [Some (Fin (coin_likelihood c1)); Some (Fin (coin_likelihood c2))] 0 c1 N ltac:(lra) eq_refl) as (w1 & E1 & L1 & B1).
  destruct (C127_root n [Some (Fin (coin_likelihood c1)); Some (Fin (coin_likelihood c2))] 1 c2 N ltac:(lra) eq_refl) as (w2 & E2 & L2 & B2).
  destruct (imv_pair n (Fin (coin_likelihood c1)) (Fin (coin_likelihood c2))) as (y1 & y2 & E & V & _). rewrite E in E1, E2. cbn [nth_error] in E1, E2. injection E1 as ->. injection E2 as ->.
  exists ((w2 - w1) / w1). split; [exact V|].
  assert (S : forall c, 3 / 5 <= c <= most -> 1 / 3 <= ln (c / (1 - c))).
  { intros c Hc. unfold most in Hc. rewrite ln_quot by lra. pose proof (slope_mono (3 / 5) c ltac:(lra) ltac:(lra) ltac:(lra)) as M. unfold slope in M.
    replace (1 - 3 / 5) with (2 / 5) in M by lra. pose proof (ln_le_sub1 ((2 / 5) / (3 / 5)) ltac:(lra)) as K. rewrite ln_quot in K by lra. replace ((2 / 5) / (3 / 5)) with (2 / 3) in K by lra. lra. }
  assert (D1 : w1 - c1 <= 6 / 1000000) by (pose proof (S c1 H1); assert ((w1 - c1) * (1 / 3) <= (w1 - c1) * ln (c1 / (1 - c1))) by (apply Rmult_le_compat_l; lra); lra).
  assert (D2 : w2 - c2 <= 6 / 1000000) by (pose proof (S c2 H2); assert ((w2 - c2) * (1 / 3) <= (w2 - c2) * ln (c2 / (1 - c2))) by (apply Rmult_le_compat_l; lra); lra).
  unfold most in *. assert (P : 0 < c1 * w1) by (apply Rmult_lt_0_compat; lra).
  replace ((w2 - w1) / w1 - (c2 - c1) / c1) with ((c1 * (w2 - c2) - c2 * (w1 - c1)) / (c1 * w1)) by (field; lra).
  unfold Rdiv at 1. rewrite Rabs_mult, (Rabs_right (/ (c1 * w1))) by (apply Rle_ge; left; now apply Rinv_0_lt_compat).
  apply Rmult_le_reg_r with (c1 * w1); [exact P|]. rewrite Rmult_assoc, Rinv_l, Rmult_1_r by lra.
  assert (U1 : 0 <= c1 * (w2 - c2) <= c1 * (6 / 1000000)) by (split; [apply Rmult_le_pos; lra|apply Rmult_le_compat_l; lra]).
  assert (U2 : 0 <= c2 * (w1 - c1) <= 1 * (6 / 1000000)) by (split; [apply Rmult_le_pos; lra|apply Rmult_le_compat; lra]).
  assert (U3 : 3 / 5 * (3 / 5) <= c1 * w1) by (apply Rmult_le_compat; lra). apply Rabs_le. lra.
Qed.
Print Assumptions C127_value.
(** Two models whose mean log-likelihoods are below that of a fair coin, as with three or more categories, get an imv of zero
    whichever of them predicts better. *)
Theorem C127_categories_refuted : forall n l1 l2, (24 <= n)%nat -> l1 <= - (4 / 5) -> l2 <= - (4 / 5) -> imv n (Some (Fin l1)) (Some (Fin l2)) = Some 0.
Proof.
  intros n l1 l2 N H1 H2. destruct (imv_pair n (Fin l1) (Fin l2)) as (y1 & y2 & E & V & P & _). rewrite V.
  pose proof (newton_low n [Some (Fin l1); Some (Fin l2)] 0 l1 N eq_refl H1) as A. pose proof (newton_low n [Some (Fin l1); Some (Fin l2)] 1 l2 N eq_refl H2) as B.
  rewrite E in A, B. cbn [nth_error] in A, B. injection A as ->. injection B as ->. f_equal. field. lra.
Qed.
Print Assumptions C127_categories_refuted.

(** Guessing among three answers against a model that gives the answers probability 2/5 on average. *)
Lemma three_answers : ln (1 / 3) < ln (2 / 5) /\ ln (2 / 5) <= - (4 / 5).
Proof.
  split; [apply ln_increasing; lra|]. replace (2 / 5) with (/ (5 / 2)) by lra. rewrite ln_Rinv by lra. assert (4 / 5 <= ln (5 / 2)); [|lra].
  pose proof (ln_le_sub1 (25 / 28) ltac:(lra)) as A. assert (B : ln (25 / 28) = - ln (28 / 25)) by (replace (25 / 28) with (/ (28 / 25)) by lra; apply ln_Rinv; lra).
  assert (F : ln ((28 / 25) ^ 8) < ln (5 / 2)) by (apply ln_increasing; [apply pow_lt; lra|cbn [pow]; lra]). rewrite ln_pow in F by lra. replace (INR 8) with 8 in F by (cbn [INR]; lra). lra.
Qed.
Example C127_nonvacuous : (24 <= 100)%nat /\ 3 / 5 <= 3 / 4 <= most /\ 3 / 5 <= 4 / 5 <= most /\
  ln (1 / 3) < ln (2 / 5) /\ imv 100 (Some (Fin (ln (1 / 3)))) (Some (Fin (ln (2 / 5)))) = Some 0.
Proof.
  pose proof three_answers as [A B]. unfold most. repeat split; try lra; [lia|]. apply C127_categories_refuted; [lia|lra|lra].
Qed.
