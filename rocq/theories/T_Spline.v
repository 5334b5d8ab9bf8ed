(** Property theorems C40 and C41: the rational-quadratic spline and the spline flow. *)
From Verif Require Import Base RBase M_Logit M_Mono M_Scale M_Spline S_Scale S_Spline P_Spline3 P_Spline4 P_Scale3 T_Scale.
Local Open Scope R_scope.

(** Any spline built with sensible arguments is covered, whatever its trained parameters are. *)
Lemma new_wf bins lo hi lo_out hi_out mw mh md w h d : (0 < bins)%nat -> lo < hi -> lo_out < hi_out ->
  0 <= mw -> mw * INR bins <= 1 -> 0 <= mh -> mh * INR bins <= 1 -> 0 <= md < 1 ->
  length w = bins -> length h = bins -> length d = (bins - 1)%nat ->
  rqs_wf {| rq_bins := bins; rq_lo := lo; rq_hi := hi; rq_lo_out := lo_out; rq_hi_out := hi_out;
            rq_min_w := mw; rq_min_h := mh; rq_min_d := md;
            rq_slope := rq_slope (rqs_new bins lo hi lo_out hi_out mw mh md); rq_w := w; rq_h := h; rq_d := d |}.
Proof.
  intros. constructor; cbn; auto. apply Rdiv_lt_0_compat; lra.
Qed.
(** Two bins on [0,1] with trained parameters, the linking scale's default slope; and the flow's default
    configuration with fifty bins (flow.py:96-107). *)
Definition unit_spline : rqs :=
  {| rq_bins := 2; rq_lo := 0; rq_hi := 1; rq_lo_out := 0; rq_hi_out := 1; rq_min_w := 1 / 1000; rq_min_h := 1 / 1000;
     rq_min_d := 1 / 1000; rq_slope := rq_slope (rqs_new 2 0 1 0 1 (1 / 1000) (1 / 1000) (1 / 1000));
     rq_w := [2; -1]; rq_h := [-3; 1]; rq_d := [5] |}.
Definition flow_default : rqs := rqs_new 50 (- (11 / 2)) (11 / 2) (-3) 3 (1 / 1000) (1 / 1000) (1 / 1000).
Lemma unit_spline_wf : rqs_wf unit_spline.
Proof. apply new_wf; cbn; try lia; lra. Qed.
Lemma unit_spline_slope : rq_slope unit_spline = 1.
Proof. cbn. field. Qed.
Lemma INR50 : INR 50 = 50.
Proof. rewrite INR_IZR_INZ. reflexivity. Qed.
Lemma flow_default_wf : rqs_wf flow_default.
Proof. apply new_wf; try rewrite INR50; try rewrite repeat_length; try lia; lra. Qed.
Lemma flow_default_slope : rq_slope flow_default = 6 / 11.
Proof. unfold flow_default, rqs_new. cbn [rq_slope]. field. Qed.

(** ** C40 *)
(** Bin sizes: at least the minimum share of the interval, positive, adding up to the interval; knots run from
    one bound to the other. *)
Theorem C40_bins_partial : forall n u lo hi mn, (0 < n)%nat -> length u = n -> 0 <= mn -> mn * INR n <= 1 -> lo < hi ->
  let '(cum, sizes) := cum_params n u lo hi mn in
  length cum = S n /\ length sizes = n /\ nth 0 cum 0 = lo /\ nth n cum 0 = hi /\
  rsum sizes = hi - lo /\
  (forall k, (k < n)%nat -> nth k sizes 0 = nth (S k) cum 0 - nth k cum 0 /\ 0 < nth k sizes 0 /\ mn * (hi - lo) <= nth k sizes 0).
Proof. exact cum_params_facts. Qed.
Print Assumptions C40_bins_partial.
Example C40_bins_partial_nonvacuous : (0 < 3)%nat /\ length [0; 5; -7] = 3%nat /\ 0 <= 1 / 1000 /\ 1 / 1000 * INR 3 <= 1 /\ -3 < 3.
Proof. cbn. repeat split; lra || lia. Qed.

(** Every input is transformed and every output inverted: no parameter value makes either fail. *)
Theorem C40_total_partial : forall m inverse x, rqs_wf m -> exists y l, rq_transform m inverse x = Ok (y, l).
Proof. intros m inverse x W. destruct (computes_exists m inverse W) as (F & L & H). eexists _, _. apply H. Qed.
Print Assumptions C40_total_partial.
Example C40_total_partial_nonvacuous : rqs_wf unit_spline /\ rqs_wf flow_default.
Proof. split; [apply unit_spline_wf|apply flow_default_wf]. Qed.

Theorem C40_increasing_partial : forall m x1 y1 l1 x2 y2 l2, rqs_wf m -> x1 < x2 ->
  rq_transform m false x1 = Ok (y1, l1) -> rq_transform m false x2 = Ok (y2, l2) -> y1 < y2.
Proof.
  intros m x1 y1 l1 x2 y2 l2 W H E1 E2. apply (forward_unique m _ _ _ W) in E1, E2. destruct E1 as [-> _], E2 as [-> _].
  apply Fv_incr; assumption.
Qed.
Print Assumptions C40_increasing_partial.
Example C40_increasing_partial_nonvacuous : exists y1 l1 y2 l2, rqs_wf unit_spline /\ (1 / 4) < (3 / 4) /\
  rq_transform unit_spline false (1 / 4) = Ok (y1, l1) /\ rq_transform unit_spline false (3 / 4) = Ok (y2, l2).
Proof.
  destruct (C40_total_partial unit_spline false (1 / 4) unit_spline_wf) as (y1 & l1 & E1).
  destruct (C40_total_partial unit_spline false (3 / 4) unit_spline_wf) as (y2 & l2 & E2).
  exists y1, l1, y2, l2. split; [apply unit_spline_wf|]. split; [lra|]. auto.
Qed.

Theorem C40_continuous_partial : forall m F L, rqs_wf m -> computes m false F L -> continuity F.
Proof.
  intros m F L W H x. apply (continuity_ext (Fv m)); [intros z; symmetry; apply (computes_forward m F L W H)|]. apply Fv_cont; assumption.
Qed.
Print Assumptions C40_continuous_partial.
Example C40_continuous_partial_nonvacuous : exists F L, rqs_wf unit_spline /\ computes unit_spline false F L.
Proof. destruct (computes_exists unit_spline false unit_spline_wf) as (F & L & H). exists F, L. split; [apply unit_spline_wf|assumption]. Qed.

(** The interval is mapped onto the output interval, end to end. *)
Theorem C40_interval_partial : forall m F L, rqs_wf m -> computes m false F L ->
  F (rq_lo m) = rq_lo_out m /\ F (rq_hi m) = rq_hi_out m /\
  (forall x, rq_lo m <= x <= rq_hi m <-> rq_lo_out m <= F x <= rq_hi_out m).
Proof.
  intros m F L W H. assert (E : forall x, F x = Fv m x) by (intros x; apply (computes_forward m F L W H)).
  rewrite !E. split; [apply Fv_lo_value; assumption|]. split; [apply Fv_hi_value; assumption|]. intros x. rewrite E. split.
  - apply Fv_bounds; assumption.
  - intros [H1 H2]. pose proof (Fv_lo_value m W). pose proof (Fv_hi_value m W). split.
    + apply Rnot_lt_le. intro K. pose proof (Fv_incr m W _ _ K). lra.
    + apply Rnot_lt_le. intro K. pose proof (Fv_incr m W _ _ K). lra.
Qed.
Print Assumptions C40_interval_partial.
Example C40_interval_partial_nonvacuous : exists F L, rqs_wf unit_spline /\ computes unit_spline false F L.
Proof. exact C40_continuous_partial_nonvacuous. Qed.

(** The inverse undoes the transformation, in both orders, and reports the opposite log-derivative. *)
Theorem C40_inverse_partial : forall m x y l, rqs_wf m ->
  (rq_transform m false x = Ok (y, l) <-> rq_transform m true y = Ok (x, - l)).
Proof.
  intros m x y l W. split; intro H.
  - apply (forward_unique m _ _ _ W) in H. destruct H as [-> ->]. apply inverse_of_forward; assumption.
  - destruct (inverse_total m y W) as (x' & E & Ey). rewrite H in E. assert (x' = x) by congruence. subst x'.
    assert (El : - l = - Lv m x) by congruence. rewrite forward_total by assumption. rewrite Ey. do 2 f_equal. lra.
Qed.
Print Assumptions C40_inverse_partial.
Example C40_inverse_partial_nonvacuous : exists y l, rqs_wf flow_default /\ rq_transform flow_default false (13 / 10) = Ok (y, l).
Proof. destruct (C40_total_partial flow_default false (13 / 10) flow_default_wf) as (y & l & E). exists y, l. split; [apply flow_default_wf|assumption]. Qed.

(** Inside the interval the reported log-derivative is the logarithm of the derivative (knots included). *)
Theorem C40_derivative_partial : forall m F L, rqs_wf m -> computes m false F L ->
  forall x, rq_lo m < x < rq_hi m -> log_derivative F x (L x).
Proof. exact derivative_inside. Qed.
Print Assumptions C40_derivative_partial.
Example C40_derivative_partial_nonvacuous : exists F L, rqs_wf unit_spline /\ computes unit_spline false F L /\ rq_lo unit_spline < 1 / 2 < rq_hi unit_spline.
Proof. destruct C40_continuous_partial_nonvacuous as (F & L & H1 & H2). exists F, L. split; [assumption|]. split; [assumption|]. unfold unit_spline. cbn [rq_lo rq_hi]. lra. Qed.

Theorem C40_inverse_derivative_partial : forall m G M, rqs_wf m -> computes m true G M ->
  forall y, rq_lo_out m < y < rq_hi_out m -> log_derivative G y (M y).
Proof.
  intros m G M W H y Hy. apply (derivative_inverse m G M y W H). apply Fv_deriv; [assumption|]. apply (G_inside m G M); assumption.
Qed.
Print Assumptions C40_inverse_derivative_partial.
Example C40_inverse_derivative_partial_nonvacuous : exists G M, rqs_wf unit_spline /\ computes unit_spline true G M /\ rq_lo_out unit_spline < 1 / 2 < rq_hi_out unit_spline.
Proof.
  destruct (computes_exists unit_spline true unit_spline_wf) as (F & L & H). exists F, L. split; [apply unit_spline_wf|]. split; [assumption|]. unfold unit_spline. cbn [rq_lo_out rq_hi_out]. lra.
Qed.

(** With equal input and output lengths (the linking scale's default) the report is right everywhere. *)
Theorem C40_unit_slope_partial : forall m F L, rqs_wf m -> rq_slope m = 1 -> computes m false F L -> forall x, log_derivative F x (L x).
Proof. exact derivative_unit. Qed.
Print Assumptions C40_unit_slope_partial.
Example C40_unit_slope_partial_nonvacuous : exists F L, rqs_wf unit_spline /\ rq_slope unit_spline = 1 /\ computes unit_spline false F L.
Proof. destruct C40_continuous_partial_nonvacuous as (F & L & H1 & H2). exists F, L. split; [assumption|]. split; [apply unit_spline_slope|assumption]. Qed.

(** Too many bins for the minimum size: inputs inside the interval are refused. *)
Theorem C40_too_many_bins_partial : forall m (inverse : bool) x,
  1 < rq_min_w m * INR (rq_bins m) \/ 1 < rq_min_h m * INR (rq_bins m) ->
  (if inverse then rq_lo_out m <= x <= rq_hi_out m else rq_lo m <= x <= rq_hi m) ->
  rq_transform m inverse x = Err ValueError.
Proof.
  intros m inverse x Hb Hx.
  assert (I : rq_inside m inverse x = Err ValueError).
  { unfold rq_inside. destruct (Rlt_dec 1 (rq_min_w m * INR (rq_bins m))); [reflexivity|].
    destruct (Rlt_dec 1 (rq_min_h m * INR (rq_bins m))); [reflexivity|]. lra. }
  destruct inverse; unfold rq_transform; cbv iota zeta.
  - destruct (Rlt_dec (rq_hi_out m) x); [lra|]. destruct (Rlt_dec x (rq_lo_out m)); [lra|]. assumption.
  - destruct (Rlt_dec (rq_hi m) x); [lra|]. destruct (Rlt_dec x (rq_lo m)); [lra|]. assumption.
Qed.
Print Assumptions C40_too_many_bins_partial.
Example C40_too_many_bins_partial_nonvacuous : let m := rqs_new 50 0 1 0 1 (1 / 40) (1 / 1000) (1 / 1000) in
  1 < rq_min_w m * INR (rq_bins m) /\ rq_lo m <= 1 / 2 <= rq_hi m.
Proof. cbn [rqs_new rq_min_w rq_bins rq_lo rq_hi]. rewrite INR50. lra. Qed.

(** Refuted for free endpoints: the output bounds are unconstrained parameters, the tail slope is fixed by
    the initial bounds, and when training moves the bounds past each other the transformation decreases. *)
Theorem C40_free_endpoints_refuted : forall m, rq_lo m < rq_hi m -> rq_hi_out m < rq_lo_out m -> 0 < rq_slope m ->
  exists x y l x' y' l', x < x' /\ rq_transform m false x = Ok (y, l) /\ rq_transform m false x' = Ok (y', l') /\ y' < y.
Proof. exact crossed_endpoints. Qed.
Print Assumptions C40_free_endpoints_refuted.
Example C40_free_endpoints_refuted_nonvacuous :
  let m := {| rq_bins := 2; rq_lo := 0; rq_hi := 1; rq_lo_out := 3 / 5; rq_hi_out := 2 / 5; rq_min_w := 1 / 1000; rq_min_h := 1 / 1000;
     rq_min_d := 1 / 1000; rq_slope := rq_slope (rqs_new 2 0 1 0 1 (1 / 1000) (1 / 1000) (1 / 1000));
     rq_w := [2; -1]; rq_h := [-3; 1]; rq_d := [5] |} in
  rq_lo m < rq_hi m /\ rq_hi_out m < rq_lo_out m /\ 0 < rq_slope m.
Proof. unfold rqs_new. cbn [rq_lo rq_hi rq_hi_out rq_lo_out rq_slope]. split; [lra|]. split; [lra|]. apply Rdiv_lt_0_compat; lra. Qed.

(** ** C41 *)
(** Outside the interval the slope is [rq_slope] and the report is zero, so the report is right exactly when
    the slope is one. *)
Theorem C41_outside_refuted : forall m F L x, rqs_wf m -> computes m false F L -> x < rq_lo m \/ rq_hi m < x ->
  derivable_pt_lim F x (rq_slope m) /\ L x = 0 /\ (log_derivative F x (L x) <-> rq_slope m = 1).
Proof.
  intros m F L x W H Hx. destruct (derivative_outside m F L W H x Hx) as [D E]. split; [assumption|]. split; [assumption|].
  unfold log_derivative. rewrite E, exp_0. split.
  - intros D'. eapply uniqueness_limite; eassumption.
  - intros <-. assumption.
Qed.
Print Assumptions C41_outside_refuted.
Example C41_outside_refuted_nonvacuous : exists F L, rqs_wf flow_default /\ computes flow_default false F L /\ rq_hi flow_default < 6.
Proof.
  destruct (computes_exists flow_default false flow_default_wf) as (F & L & H). exists F, L.
  split; [apply flow_default_wf|]. split; [assumption|]. unfold flow_default, rqs_new. cbn [rq_hi]. lra.
Qed.
(** The same for the inverse direction: reported 0, derivative the reciprocal of the slope. *)
Theorem C41_inverse_outside_refuted : forall m G M y, rqs_wf m -> computes m true G M -> y < rq_lo_out m \/ rq_hi_out m < y ->
  derivable_pt_lim G y (/ rq_slope m) /\ M y = 0 /\ (log_derivative G y (M y) <-> rq_slope m = 1).
Proof.
  intros m G M y W H Hy.
  pose proof (inverse_left m G M W H (rq_lo m)) as E1. pose proof (inverse_left m G M W H (rq_hi m)) as E2.
  rewrite Fv_lo_value in E1 by assumption. rewrite Fv_hi_value in E2 by assumption.
  assert (Hx : G y < rq_lo m \/ rq_hi m < G y).
  { destruct Hy as [Hy|Hy]; [left; rewrite <- E1|right; rewrite <- E2]; apply (G_incr m G M); assumption. }
  assert (EM : M y = 0) by (destruct (inverse_facts m G M W H y) as [_ ->]; rewrite Lv_out by assumption; ring).
  assert (D : derivable_pt_lim G y (/ rq_slope m)).
  { destruct (inverse_facts m G M W H y) as [E _]. rewrite <- E at 1. apply (inverse_derivative (Fv m)).
    - intros a b. apply Fv_incr; assumption.
    - apply (inverse_left m G M W H).
    - intros b. apply (inverse_facts m G M W H b).
    - apply Fv_deriv_out; assumption.
    - apply W. }
  split; [assumption|]. split; [assumption|]. unfold log_derivative. rewrite EM, exp_0. split.
  - intros D'. pose proof (uniqueness_limite _ _ _ _ D D') as U. rewrite <- (Rinv_inv (rq_slope m)), U. apply Rinv_1.
  - intros E. rewrite E, Rinv_1 in D. assumption.
Qed.
Print Assumptions C41_inverse_outside_refuted.
Example C41_inverse_outside_refuted_nonvacuous : exists G M, rqs_wf flow_default /\ computes flow_default true G M /\ rq_hi_out flow_default < 4.
Proof.
  destruct (computes_exists flow_default true flow_default_wf) as (F & L & H). exists F, L.
  split; [apply flow_default_wf|]. split; [assumption|]. unfold flow_default, rqs_new. cbn [rq_hi_out]. lra.
Qed.
(** The flow's default configuration: every latent score more than 5.5 standard deviations from the mean gets
    a log-density too large by ln (11/6). *)
Theorem C41_flow_default_refuted : forall log_density x y l, x < - (11 / 2) \/ 11 / 2 < x ->
  rq_transform flow_default false x = Ok (y, l) ->
  flow_log_prob flow_default log_density x = Ok (log_density y) /\
  log_density y = (log_density y + ln (rq_slope flow_default)) + ln (11 / 6).
Proof.
  intros ld x y l Hx E. assert (El : l = 0).
  { apply (forward_unique _ _ _ _ flow_default_wf) in E. destruct E as [_ ->]. apply Lv_out; [apply flow_default_wf|]. exact Hx. }
  split.
  - unfold flow_log_prob. rewrite E. cbn [bind]. rewrite El, Rplus_0_r. reflexivity.
  - rewrite flow_default_slope. assert (ln (6 / 11) + ln (11 / 6) = 0); [|lra].
    rewrite <- ln_mult by lra. replace (6 / 11 * (11 / 6)) with 1 by field. apply ln_1.
Qed.
Print Assumptions C41_flow_default_refuted.
Example C41_flow_default_refuted_nonvacuous : exists y l, 11 / 2 < 6 /\ rq_transform flow_default false 6 = Ok (y, l).
Proof. destruct (C40_total_partial flow_default false 6 flow_default_wf) as (y & l & E). exists y, l. split; [lra|assumption]. Qed.
(** Holds with unit slope. *)
Theorem C41_unit_partial : forall m F L x, rqs_wf m -> rq_slope m = 1 -> computes m false F L ->
  x < rq_lo m \/ rq_hi m < x -> L x = ln (rq_slope m) /\ log_derivative F x (L x).
Proof.
  intros m F L x W Hs H Hx. destruct (C41_outside_refuted m F L x W H Hx) as (_ & E & D).
  split; [rewrite E, Hs, ln_1; reflexivity|]. apply D; assumption.
Qed.
Print Assumptions C41_unit_partial.
Example C41_unit_partial_nonvacuous : exists F L, rqs_wf unit_spline /\ rq_slope unit_spline = 1 /\ computes unit_spline false F L /\ rq_hi unit_spline < 2.
Proof.
  destruct (computes_exists unit_spline false unit_spline_wf) as (F & L & H). exists F, L.
  split; [apply unit_spline_wf|]. split; [apply unit_spline_slope|]. split; [assumption|]. cbn. lra.
Qed.
(** Inside the interval the flow's log-density is the change-of-variables formula. *)
Theorem C41_density_inside_partial : forall m F L log_density x, rqs_wf m -> computes m false F L -> rq_lo m < x < rq_hi m ->
  exists d, derivable_pt_lim F x d /\ 0 < d /\ flow_log_prob m log_density x = Ok (log_density (F x) + ln d).
Proof.
  intros m F L ld x W H Hx. exists (exp (L x)). split; [apply (derivative_inside m F L W H x Hx)|]. split; [apply exp_pos|].
  unfold flow_log_prob. rewrite H. cbn [bind]. rewrite ln_exp. reflexivity.
Qed.
Print Assumptions C41_density_inside_partial.
Example C41_density_inside_partial_nonvacuous : exists F L, rqs_wf unit_spline /\ computes unit_spline false F L /\ rq_lo unit_spline < 1 / 2 < rq_hi unit_spline.
Proof. exact C40_derivative_partial_nonvacuous. Qed.

(** ** End to end: the scales that use the spline *)
(** The round-trip hypotheses of C39 and C70 are met by the spline itself. *)
Theorem C39_linking_spline_partial : forall m F L G M grad, rqs_wf m -> computes m false F L -> computes m true G M ->
  round_trip 1 [link_spline_scale grad F G false].
Proof.
  intros m F L G M grad W HF HG. apply C39_not_inverted_partial.
  - intros x. destruct (computes_forward m F L W HF x) as [-> _]. apply (inverse_left m G M W HG).
  - intros y. destruct (computes_forward m F L W HF (G y)) as [-> _]. apply (inverse_facts m G M W HG y).
Qed.
Print Assumptions C39_linking_spline_partial.
Example C39_linking_spline_partial_nonvacuous : exists F L G M, rqs_wf unit_spline /\ computes unit_spline false F L /\ computes unit_spline true G M.
Proof.
  destruct (computes_exists unit_spline false unit_spline_wf) as (F & L & HF).
  destruct (computes_exists unit_spline true unit_spline_wf) as (G & M & HG).
  exists F, L, G, M. split; [apply unit_spline_wf|]. auto.
Qed.
Theorem C70_flow_spline_partial : forall n grad means stds ms fs ls gs ms', length means = n -> length stds = n ->
  length fs = n -> length gs = n -> (forall i, (i < n)%nat -> nth i stds 0 <> 0) ->
  (forall i, (i < n)%nat -> rqs_wf (nth i ms flow_default) /\
    computes (nth i ms flow_default) false (nth i fs (fun x => x)) (nth i ls (fun x => x)) /\
    computes (nth i ms flow_default) true (nth i gs (fun x => x)) (nth i ms' (fun x => x))) ->
  round_trip n [flow_scale grad means stds (Some (fs, gs))].
Proof.
  intros n grad means stds ms fs ls gs ms' H1 H2 H3 H4 Hs H. apply C70_flow_round_trip_partial; auto.
  - intros i x Hi. destruct (H i Hi) as (W & HF & HG). destruct (computes_forward _ _ _ W HF x) as [-> _]. apply (inverse_left _ _ _ W HG).
  - intros i y Hi. destruct (H i Hi) as (W & HF & HG).
    destruct (computes_forward _ _ _ W HF (nth i gs (fun x => x) y)) as [-> _]. apply (inverse_facts _ _ _ W HG y).
Qed.
Print Assumptions C70_flow_spline_partial.
Example C70_flow_spline_partial_nonvacuous : exists f l g k, rqs_wf flow_default /\ computes flow_default false f l /\ computes flow_default true g k /\
  round_trip 1 [flow_scale (fun _ _ => 0) [1] [2] (Some ([f], [g]))].
Proof.
  destruct (computes_exists flow_default false flow_default_wf) as (f & l & HF).
  destruct (computes_exists flow_default true flow_default_wf) as (g & k & HG).
  exists f, l, g, k. split; [apply flow_default_wf|]. split; [assumption|]. split; [assumption|].
  apply (C70_flow_spline_partial 1 _ _ _ [flow_default] [f] [l] [g] [k]); try reflexivity;
    intros i Hi; assert (i = O) by lia; subst i; cbn [nth]; [lra|]. split; [apply flow_default_wf|]. auto.
Qed.
