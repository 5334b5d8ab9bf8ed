(** A three-parameter model whose log-likelihood has a stationary point that is not a maximum. *)
From Verif Require Import Base BaseFacts RBase RFacts M_Data M_Logit M_Lik M_Est P_Logit P_Spline4 P_Info2 P_Info3 S_Logit S_Lik S_Est S_Opt P_Opt1 P_Opt2 P_Opt3.
Import List.
Local Open Scope R_scope.

Definition guess3 : thpl := {| thpl_lv := 1; thpl_free := [[true]; [true]]; thpl_w := [2; 1]; thpl_b := [0; 0]; thpl_g := [- ln 100; - ln 100] |}.
Definition guess3_row : list cell := [Some 1%Z; Some 0%Z].
Definition c3 : R := / 101.
Definition f3 (x : R) : R := (c3 + (1 - c3) * logistic (2 * x)) * (1 - (c3 + (1 - c3) * logistic x)).
Lemma logistic_ln y : 0 < y -> logistic (ln y) = y / (1 + y).
Proof. intro H. rewrite logistic_exp, exp_ln by exact H. reflexivity. Qed.
Lemma guess3_likelihood x : likelihood (thpl_p guess3) [x] guess3_row = f3 x.
Proof.
  assert (G : logistic (- ln 100) = c3).
  { replace (- ln 100) with (ln (/ 100)) by (apply ln_Rinv; lra). rewrite logistic_ln by lra. unfold c3. field. }
  unfold likelihood, guess3_row. cbn [mapi mapi_from rprod]. unfold answer. change (1 =? -1)%Z with false. change (0 =? -1)%Z with false. cbv iota. unfold thpl_p, predictor, slope. change (Z.to_nat 1) with 1%nat. change (Z.to_nat 0) with 0%nat.
  cbn. rewrite G. unfold f3. replace (0 + 2 * x + 0) with (2 * x) by ring. replace (0 + 1 * x + 0) with x by ring. ring.
Qed.
Lemma f3_pos x : 0 < f3 x.
Proof. unfold f3, c3. pose proof (logistic_bounds x). pose proof (logistic_bounds (2 * x)). apply Rmult_lt_0_compat; lra. Qed.
Lemma f3_derivable x : exists l, derivable_pt_lim f3 x l.
Proof.
  pose proof (logistic_affine_derivative (2 * x) 2 x) as D1. pose proof (logistic_affine_derivative x 1 x) as D2.
  eexists. apply (derivable_ext (fun y => (c3 + (1 - c3) * logistic (2 * x + 2 * (y - x))) * (1 - (c3 + (1 - c3) * logistic (x + 1 * (y - x)))))).
  { intro y. unfold f3. replace (2 * x + 2 * (y - x)) with (2 * y) by ring. replace (x + 1 * (y - x)) with y by ring. reflexivity. }
  exact (derivable_pt_lim_mult _ _ _ _ _ (derivable_pt_lim_plus _ _ _ _ _ (derivable_pt_lim_const c3 x) (derivable_pt_lim_scal _ (1 - c3) _ _ D1))
    (derivable_pt_lim_minus _ _ _ _ _ (derivable_pt_lim_const 1 x) (derivable_pt_lim_plus _ _ _ _ _ (derivable_pt_lim_const c3 x) (derivable_pt_lim_scal _ (1 - c3) _ _ D2)))).
Qed.
Lemma f3_at y : 0 < y -> f3 (ln y) = (c3 + (1 - c3) * (y * y / (1 + y * y))) * (1 - (c3 + (1 - c3) * (y / (1 + y)))).
Proof. intro H. unfold f3. replace (2 * ln y) with (ln (y * y)) by (rewrite ln_mult by assumption; ring). rewrite !logistic_ln by (assumption || now apply Rmult_lt_0_compat). reflexivity. Qed.
Lemma guess3_stationary : exists x, partial_is (fun t => ln (likelihood (thpl_p guess3) t guess3_row)) [x] 0 0 /\ f3 x < f3 0.
Proof.
  assert (LA : ln (/ 1000000) < ln (/ 200)) by (apply ln_increasing; lra). assert (LB : ln (/ 200) < 0) by (rewrite <- ln_1; apply ln_increasing; lra).
  assert (V1 : f3 (ln (/ 200)) < f3 (ln (/ 1000000))) by (rewrite !f3_at by lra; unfold c3; lra).
  assert (V2 : f3 (ln (/ 200)) < f3 0) by (rewrite <- ln_1, !f3_at by lra; unfold c3; lra).
  destruct (continuity_ab_min f3 (ln (/ 1000000)) 0) as (x & Hmin & Hx); [lra| |].
  { intros y _. destruct (f3_derivable y) as [l Hl]. apply derivable_continuous_pt. now exists l. }
  pose proof (Hmin (ln (/ 200)) ltac:(lra)) as HV. assert (Hi : ln (/ 1000000) < x < 0) by (destruct (Req_dec x (ln (/ 1000000))) as [->|]; [lra|]; destruct (Req_dec x 0) as [->|]; lra).
  destruct (f3_derivable x) as [l Hl]. assert (L0 : l = 0).
  { set (pr := exist _ l Hl : derivable_pt f3 x). rewrite <- (derive_pt_eq_0 f3 x l pr Hl). apply (deriv_minimum f3 (ln (/ 1000000)) 0 x pr); [lra|lra|]. intros y H1 H2. apply Hmin. lra. }
  subst l. exists x. split; [|lra]. unfold partial_is. cbn [nth upd]. apply (derivable_ext (fun y => ln (f3 y))); [intro y; now rewrite guess3_likelihood|].
  pose proof (derivable_pt_lim_comp f3 ln x 0 (/ f3 x) Hl (derivable_pt_lim_ln _ (f3_pos x))) as H. rewrite Rmult_0_r in H. exact H.
Qed.
