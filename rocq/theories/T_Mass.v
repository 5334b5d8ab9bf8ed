(** Property theorems C109: the mass of the density a flow is trained with. *)
From Verif Require Import Base RBase RFacts M_Spline S_Spline S_Mass P_Spline3 P_Spline4 P_Pop6 P_Mass T_Spline.
Local Open Scope R_scope.

(** The base distribution of the examples: the logistic one. *)
Lemma logistic_distribution : distribution (fun x => logistic x * (1 - logistic x)) logistic.
Proof.
  constructor.
  - apply logistic_derivative.
  - intro x. destruct (logistic_bounds x). apply Rmult_lt_0_compat; lra.
  - intros eps He. exists (- ln eps). intros x Hx. destruct (logistic_bounds x). rewrite Rabs_right by lra. pose proof (exp_pos x) as E.
    assert (K : exp x < eps). { rewrite <- (exp_ln eps) by exact He. apply exp_increasing. lra. }
    rewrite logistic_exp. apply Rle_lt_trans with (exp x); [|exact K]. apply (Rmult_le_reg_r (1 + exp x)); [lra|]. replace (exp x / (1 + exp x) * (1 + exp x)) with (exp x) by (field; lra). rewrite Rmult_plus_distr_l, Rmult_1_r. assert (0 < exp x * exp x) by (now apply Rmult_lt_0_compat). lra.
  - intros eps He. exists (- ln eps). intros x Hx. destruct (logistic_bounds x). rewrite Rabs_left by lra. replace (- (logistic x - 1)) with (1 - logistic x) by ring. rewrite logistic_compl. pose proof (exp_pos x) as E.
    assert (K : / eps < exp x). { rewrite <- (exp_ln (/ eps)) by (now apply Rinv_0_lt_compat). apply exp_increasing. rewrite ln_Rinv by exact He. lra. }
    rewrite <- (Rinv_inv eps). apply Rinv_lt_contravar; [|lra]. apply Rmult_lt_0_compat; [now apply Rinv_0_lt_compat|lra].
Qed.
(** The areas of a function and its total mass are determined by the function. *)
Theorem C109_area_unique : forall f a b v v', area f a b v -> area f a b v' -> v = v'.
Proof. exact area_unique. Qed.
Print Assumptions C109_area_unique.
Example C109_area_unique_nonvacuous : area (fun x => logistic x * (1 - logistic x)) 0 1 (logistic 1 - logistic 0).
Proof. exists logistic. split; [|reflexivity]. apply antiderivative_of; [lra|]. intros. apply logistic_derivative. Qed.
(** Between the input bounds the reported density is that of the transformed variable: its mass on [a, b] is the
    probability the base distribution gives the transformed interval. *)
Theorem C109_inside : forall m g G D F L, rqs_wf m -> distribution g G -> reported_density m g D -> computes m false F L ->
  forall a b, rq_lo m <= a -> a <= b -> b <= rq_hi m -> area D a b (G (F b) - G (F a)).
Proof. intros m g G D F L. exact (area_inside m g G D F L). Qed.
Print Assumptions C109_inside.
Example C109_inside_nonvacuous : exists D F L, rqs_wf flow_default /\ distribution (fun x => logistic x * (1 - logistic x)) logistic /\
  reported_density flow_default (fun x => logistic x * (1 - logistic x)) D /\ computes flow_default false F L /\ rq_lo flow_default <= -1 /\ 2 <= rq_hi flow_default.
Proof.
  destruct (density_exists flow_default (fun x => logistic x * (1 - logistic x)) flow_default_wf (di_pos _ _ logistic_distribution)) as (D & HD).
  destruct (computes_exists flow_default false flow_default_wf) as (F & L & H). exists D, F, L. split; [exact flow_default_wf|]. split; [exact logistic_distribution|]. split; [exact HD|]. split; [exact H|].
  unfold flow_default, rqs_new. cbn [rq_lo rq_hi]. lra.
Qed.
(** Outside them the mass of an interval is that probability divided by the slope of the linear part. *)
Theorem C109_tails_refuted : forall m g G D F L, rqs_wf m -> distribution g G -> reported_density m g D -> computes m false F L ->
  forall a b, a < b -> b <= rq_lo m \/ rq_hi m <= a ->
    area D a b ((G (F b) - G (F a)) / rq_slope m) /\ (area D a b (G (F b) - G (F a)) <-> rq_slope m = 1).
Proof.
  intros m g G D F L W HG HD HC a b Hab Hx. assert (A : area D a b ((G (F b) - G (F a)) / rq_slope m)).
  { destruct Hx as [Hx|Hx]; [apply (area_low m g G D F L)|apply (area_high m g G D F L)]; auto; lra. }
  split; [exact A|]. pose proof (wf_slope m W) as HS. split.
  - intro A'. pose proof (area_unique _ _ _ _ _ A A') as E.
    assert (P : 0 < G (F b) - G (F a)).
    { assert (F a < F b); [|pose proof (increasing g G HG _ _ H); lra]. pose proof (Fv_incr m W a b Hab) as I. destruct (computes_forward m F L W HC a) as [-> _]. destruct (computes_forward m F L W HC b) as [-> _]. exact I. }
    set (p := G (F b) - G (F a)) in *. apply (f_equal (fun t => t * rq_slope m / p)) in E. replace (p / rq_slope m * rq_slope m / p) with 1 in E by (field; lra). replace (p * rq_slope m / p) with (rq_slope m) in E by (field; lra). auto.
  - intro E. rewrite E in A. unfold Rdiv in A. rewrite Rinv_1, Rmult_1_r in A. exact A.
Qed.
Print Assumptions C109_tails_refuted.
Example C109_tails_refuted_nonvacuous : exists D F L, rqs_wf flow_default /\ distribution (fun x => logistic x * (1 - logistic x)) logistic /\
  reported_density flow_default (fun x => logistic x * (1 - logistic x)) D /\ computes flow_default false F L /\ rq_hi flow_default <= 6.
Proof.
  destruct C109_inside_nonvacuous as (D & F & L & W & HG & HD & HC & _). exists D, F, L. split; [exact W|]. split; [exact HG|]. split; [exact HD|]. split; [exact HC|]. unfold flow_default, rqs_new. cbn [rq_hi]. lra.
Qed.
(** The whole mass: the base distribution's probability of the output interval, plus the rest divided by the slope.
    It is one exactly when the slope is one. *)
Theorem C109_total_refuted : forall m g G D, rqs_wf m -> distribution g G -> reported_density m g D ->
  let P := G (rq_hi_out m) - G (rq_lo_out m) in
  total_mass D (P + (1 - P) / rq_slope m) /\ (forall T, total_mass D T -> T = P + (1 - P) / rq_slope m) /\ (total_mass D 1 <-> rq_slope m = 1) /\
  (rq_slope m < 1 -> 1 < P + (1 - P) / rq_slope m) /\ (1 < rq_slope m -> P + (1 - P) / rq_slope m < 1).
Proof.
  intros m g G D W HG HD P. destruct (computes_exists m false W) as (F & L & HC). pose proof (total_all m g G D F L W HG HD HC) as Q. pose proof (inner_bounds m g G W HG) as [P0 P1]. pose proof (wf_slope m W) as HS.
  unfold inner in *. fold P in Q, P0, P1. rewrite Rplus_comm in Q. split; [exact Q|]. split; [intros T HT; exact (total_unique _ _ _ HT Q)|].
  assert (K : (P + (1 - P) / rq_slope m - 1) * rq_slope m = (1 - P) * (1 - rq_slope m)) by (field; lra). split; [|split].
  - split; intro H.
    + rewrite <- (total_unique _ _ _ H Q), Rminus_eq_0, Rmult_0_l in K. symmetry in K. apply Rmult_integral in K. destruct K; lra.
    + rewrite H in Q. replace (P + (1 - P) / 1) with 1 in Q by field. exact Q.
  - intro H. apply Rnot_le_lt. intro N. assert (0 < (1 - P) * (1 - rq_slope m)) by (apply Rmult_lt_0_compat; lra).
    assert ((P + (1 - P) / rq_slope m - 1) * rq_slope m <= 0 * rq_slope m) by (apply Rmult_le_compat_r; lra). lra.
  - intro H. apply Rnot_le_lt. intro N. assert (0 < (1 - P) * (rq_slope m - 1)) by (apply Rmult_lt_0_compat; lra).
    assert (0 * rq_slope m <= (P + (1 - P) / rq_slope m - 1) * rq_slope m) by (apply Rmult_le_compat_r; lra).
    replace ((1 - P) * (1 - rq_slope m)) with (- ((1 - P) * (rq_slope m - 1))) in K by ring. lra.
Qed.
Print Assumptions C109_total_refuted.
Example C109_total_refuted_nonvacuous : exists D, rqs_wf flow_default /\ distribution (fun x => logistic x * (1 - logistic x)) logistic /\
  reported_density flow_default (fun x => logistic x * (1 - logistic x)) D /\ rq_slope flow_default < 1.
Proof.
  destruct C109_inside_nonvacuous as (D & F & L & W & HG & HD & HC & _). exists D. split; [exact W|]. split; [exact HG|]. split; [exact HD|]. rewrite flow_default_slope. lra.
Qed.
(** The flow as [Flow.fit] builds it (fifty bins, -5.5 to 5.5 onto -3 to 3), whatever its trained parameters and whatever the
    base distribution: the mass exceeds one by five sixths of the probability of the base distribution outside (-3, 3). *)
Theorem C109_flow_default_refuted : forall w h d g G D, length w = 50%nat -> length h = 50%nat -> length d = 49%nat -> distribution g G ->
  reported_density {| rq_bins := rq_bins flow_default; rq_lo := rq_lo flow_default; rq_hi := rq_hi flow_default; rq_lo_out := rq_lo_out flow_default; rq_hi_out := rq_hi_out flow_default;
    rq_min_w := rq_min_w flow_default; rq_min_h := rq_min_h flow_default; rq_min_d := rq_min_d flow_default; rq_slope := rq_slope flow_default; rq_w := w; rq_h := h; rq_d := d |} g D ->
  total_mass D (1 + 5 / 6 * (G (-3) + (1 - G 3))) /\ ~ total_mass D 1.
Proof.
  intros w h d g G D Hw Hh Hd HG HD.
  match type of HD with reported_density ?s _ _ => set (m := s) in HD end. assert (W : rqs_wf m) by (apply (new_wf 50 (- (11 / 2)) (11 / 2) (-3) 3 (1 / 1000) (1 / 1000) (1 / 1000) w h d); rewrite ?INR50; auto; try lia; lra).
  pose proof (C109_total_refuted m g G D W HG HD) as (Q & _ & N & _). assert (S : rq_slope m = 6 / 11) by (exact flow_default_slope). rewrite S in Q, N. split.
  - change (rq_hi_out m) with 3 in Q. change (rq_lo_out m) with (-3) in Q. replace (1 + 5 / 6 * (G (-3) + (1 - G 3))) with (G 3 - G (-3) + (1 - (G 3 - G (-3))) / (6 / 11)) by field. exact Q.
  - intro H. apply N in H. lra.
Qed.
Print Assumptions C109_flow_default_refuted.
Example C109_flow_default_refuted_nonvacuous : exists D, distribution (fun x => logistic x * (1 - logistic x)) logistic /\
  length (repeat 1 25 ++ repeat (-2) 25) = 50%nat /\ length (repeat 0 49) = 49%nat /\
  reported_density {| rq_bins := rq_bins flow_default; rq_lo := rq_lo flow_default; rq_hi := rq_hi flow_default; rq_lo_out := rq_lo_out flow_default; rq_hi_out := rq_hi_out flow_default;
    rq_min_w := rq_min_w flow_default; rq_min_h := rq_min_h flow_default; rq_min_d := rq_min_d flow_default; rq_slope := rq_slope flow_default;
    rq_w := repeat 1 25 ++ repeat (-2) 25; rq_h := repeat (-2) 25 ++ repeat 1 25; rq_d := repeat 0 49 |} (fun x => logistic x * (1 - logistic x)) D.
Proof.
  destruct (density_exists {| rq_bins := rq_bins flow_default; rq_lo := rq_lo flow_default; rq_hi := rq_hi flow_default; rq_lo_out := rq_lo_out flow_default; rq_hi_out := rq_hi_out flow_default;
    rq_min_w := rq_min_w flow_default; rq_min_h := rq_min_h flow_default; rq_min_d := rq_min_d flow_default; rq_slope := rq_slope flow_default;
    rq_w := repeat 1 25 ++ repeat (-2) 25; rq_h := repeat (-2) 25 ++ repeat 1 25; rq_d := repeat 0 49 |} (fun x => logistic x * (1 - logistic x))) as (D & HD);
    [apply (new_wf 50 (- (11 / 2)) (11 / 2) (-3) 3 (1 / 1000) (1 / 1000) (1 / 1000) (repeat 1 25 ++ repeat (-2) 25) (repeat (-2) 25 ++ repeat 1 25) (repeat 0 49)); rewrite ?INR50; try reflexivity; try lia; lra|apply logistic_distribution|].
  exists D. split; [exact logistic_distribution|]. split; [reflexivity|]. split; [reflexivity|]. exact HD.
Qed.
