(** Lemmas: spline theorems in terms of what the spline returns. *)
From Verif Require Import Base BaseFacts RBase RFacts M_Logit M_Mono M_Spline S_Spline P_Mono1 P_Mono2 P_Mono8 P_Scale1 P_Spline1 P_Spline2 P_Spline3.
Local Open Scope R_scope.

Lemma cum_params_facts n u lo hi mn : (0 < n)%nat -> length u = n -> 0 <= mn -> mn * INR n <= 1 -> lo < hi ->
  let '(cum, sizes) := cum_params n u lo hi mn in
  length cum = S n /\ length sizes = n /\ nth 0 cum 0 = lo /\ nth n cum 0 = hi /\
  rsum sizes = hi - lo /\
  (forall k, (k < n)%nat -> nth k sizes 0 = nth (S k) cum 0 - nth k cum 0 /\ 0 < nth k sizes 0 /\ mn * (hi - lo) <= nth k sizes 0).
Proof.
  intros Hn Hu Hm Hm1 Hlh.
  pose proof (cumk_length n u lo hi mn Hu) as L1. pose proof (sizes_length n u lo hi mn Hn Hu) as L2.
  pose proof (fun k => nth_cumk n u lo hi mn Hn Hu k) as N1. pose proof (nth_sizes n u lo hi mn Hn Hu) as N2.
  unfold cumk in *. destruct (cum_params n u lo hi mn) as [cum sizes]. cbn [fst snd] in *.
  split; [assumption|]. split; [assumption|]. split; [rewrite N1 by lia; apply knot_0|].
  split; [rewrite N1 by lia; apply knot_n; assumption|]. split.
  - rewrite rsum_nth, L2. rewrite (sumn_ext _ _ (fun k => (hi - lo) * psize n u mn k)).
    + rewrite sumn_scal, psize_sum by assumption. ring.
    + intros k Hk. rewrite N2 by assumption. apply knot_step.
  - intros k Hk. rewrite N2 by assumption. rewrite !N1 by lia. split; [reflexivity|].
    pose proof (knot_lt n u lo hi mn Hn Hu Hm Hm1 k Hlh). split; [lra|].
    rewrite knot_step. pose proof (psize_ge n u mn Hn Hu Hm1 k). rewrite Rmult_comm. apply Rmult_le_compat_l; lra.
Qed.

Lemma forward_unique m x y l : rqs_wf m -> rq_transform m false x = Ok (y, l) -> y = Fv m x /\ l = Lv m x.
Proof. intros W H. rewrite (forward_total m W) in H. split; congruence. Qed.
Lemma computes_forward m F L : rqs_wf m -> computes m false F L -> forall x, F x = Fv m x /\ L x = Lv m x.
Proof. intros W H x. apply forward_unique; auto. Qed.
Lemma derivable_ext f g x l : (forall z, f z = g z) -> derivable_pt_lim f x l -> derivable_pt_lim g x l.
Proof. intros E H e He. destruct (H e He) as (d & Hd). exists d. intros h h0 hd. rewrite <- !E. apply Hd; assumption. Qed.

Lemma inverse_total m y : rqs_wf m -> exists x, rq_transform m true y = Ok (x, - Lv m x) /\ Fv m x = y.
Proof.
  intros W. destruct (Fv_onto m W y) as (x & <-). exists x. split; [apply inverse_of_forward; assumption|reflexivity].
Qed.
Lemma inverse_facts m G M : rqs_wf m -> computes m true G M -> forall y, Fv m (G y) = y /\ M y = - Lv m (G y).
Proof.
  intros W H y. destruct (inverse_total m y W) as (x & E & Ex). rewrite H in E.
  assert (G y = x) by congruence. assert (M y = - Lv m x) by congruence. subst x. split; assumption.
Qed.
Lemma inverse_left m G M : rqs_wf m -> computes m true G M -> forall x, G (Fv m x) = x.
Proof. intros W H x. pose proof (inverse_of_forward m W x) as E. rewrite H in E. congruence. Qed.

Lemma G_incr m G M : rqs_wf m -> computes m true G M -> forall a b, a < b -> G a < G b.
Proof.
  intros W H a b Hab. destruct (Rtotal_order (G a) (G b)) as [|[E|E]]; [assumption| |]; exfalso;
    destruct (inverse_facts m G M W H a) as [Ea _]; destruct (inverse_facts m G M W H b) as [Eb _].
  - rewrite E in Ea. lra.
  - pose proof (Fv_incr m W _ _ E). lra.
Qed.
Lemma Fv_lo_value m : rqs_wf m -> Fv m (rq_lo m) = rq_lo_out m.
Proof. intros W. rewrite <- (kx_0 m), <- (ky_0 m). rewrite (Fv_lo m W) by lra. ring. Qed.
Lemma Fv_hi_value m : rqs_wf m -> Fv m (rq_hi m) = rq_hi_out m.
Proof. intros W. rewrite <- (kx_n m W), <- (ky_n m W). rewrite (Fv_hi m W) by lra. ring. Qed.
Lemma G_inside m G M y : rqs_wf m -> computes m true G M -> rq_lo_out m < y < rq_hi_out m -> rq_lo m < G y < rq_hi m.
Proof.
  intros W H Hy. pose proof (inverse_left m G M W H (rq_lo m)) as E1. pose proof (inverse_left m G M W H (rq_hi m)) as E2.
  rewrite Fv_lo_value in E1 by assumption. rewrite Fv_hi_value in E2 by assumption.
  pose proof (G_incr m G M W H _ _ (proj1 Hy)). pose proof (G_incr m G M W H _ _ (proj2 Hy)). lra.
Qed.
Lemma derivative_inside m F L : rqs_wf m -> computes m false F L -> forall x, rq_lo m < x < rq_hi m -> log_derivative F x (L x).
Proof.
  intros W H x Hx. unfold log_derivative. destruct (computes_forward m F L W H x) as [_ ->].
  apply (derivable_ext (Fv m)); [intros z; symmetry; apply (computes_forward m F L W H)|]. apply Fv_deriv; assumption.
Qed.
Lemma derivative_outside m F L : rqs_wf m -> computes m false F L -> forall x, x < rq_lo m \/ rq_hi m < x ->
  derivable_pt_lim F x (rq_slope m) /\ L x = 0.
Proof.
  intros W H x Hx. split.
  - apply (derivable_ext (Fv m)); [intros z; symmetry; apply (computes_forward m F L W H)|]. apply Fv_deriv_out; assumption.
  - destruct (computes_forward m F L W H x) as [_ ->]. apply Lv_out; assumption.
Qed.
Lemma derivative_unit m F L : rqs_wf m -> rq_slope m = 1 -> computes m false F L -> forall x, log_derivative F x (L x).
Proof.
  intros W Hs H x.
  destruct (Rlt_le_dec x (rq_lo m)) as [H1|H1].
  { destruct (derivative_outside m F L W H x (or_introl H1)) as [D E]. unfold log_derivative. rewrite E, exp_0, <- Hs. assumption. }
  destruct (Rlt_le_dec (rq_hi m) x) as [H2|H2].
  { destruct (derivative_outside m F L W H x (or_intror H2)) as [D E]. unfold log_derivative. rewrite E, exp_0, <- Hs. assumption. }
  assert (D : x = rq_lo m \/ x = rq_hi m \/ rq_lo m < x < rq_hi m) by lra.
  assert (En : (x = rq_lo m \/ x = rq_hi m) -> log_derivative F x (L x)).
  { intros E. unfold log_derivative. destruct (computes_forward m F L W H x) as [_ ->]. rewrite Lv_ends, exp_0 by assumption.
    apply (derivable_ext (Fv m)); [intros z; symmetry; apply (computes_forward m F L W H)|]. apply Fv_deriv_ends; assumption. }
  destruct D as [D|[D|D]]; [auto|auto|]. apply (derivative_inside m F L W H x D).
Qed.
(** The inverse's reported log-derivative, wherever the forward one is right. *)
Lemma derivative_inverse m G M y : rqs_wf m -> computes m true G M ->
  derivable_pt_lim (Fv m) (G y) (exp (Lv m (G y))) -> log_derivative G y (M y).
Proof.
  intros W H D. destruct (inverse_facts m G M W H y) as [E ->]. unfold log_derivative. rewrite exp_Ropp.
  rewrite <- E at 1. apply (inverse_derivative (Fv m)).
  - intros a b. apply Fv_incr; assumption.
  - apply (inverse_left m G M W H).
  - intros b. apply (inverse_facts m G M W H b).
  - assumption.
  - apply exp_pos.
Qed.
Lemma Lv_kink m x F L : rqs_wf m -> computes m false F L -> x = rq_lo m \/ x = rq_hi m -> L x = 0.
Proof. intros W H Hx. destruct (computes_forward m F L W H x) as [_ ->]. apply Lv_ends; assumption. Qed.

Lemma computes_exists m inverse : rqs_wf m -> exists F L, computes m inverse F L.
Proof.
  intros W. destruct inverse.
  - exists (fun y => match rq_transform m true y with Ok (x, _) => x | Err _ => 0 end),
      (fun y => match rq_transform m true y with Ok (_, l) => l | Err _ => 0 end).
    intros y. destruct (inverse_total m y W) as (x & E & _). rewrite E. reflexivity.
  - exists (Fv m), (Lv m). intros x. apply forward_total; assumption.
Qed.
Lemma continuity_ext f g x : (forall z, f z = g z) -> continuity_pt f x -> continuity_pt g x.
Proof.
  intros E H e He. destruct (H e He) as (a & Ha & Hb). exists a. split; [assumption|]. intros z Hz. rewrite <- !E. apply Hb; assumption.
Qed.
Lemma Fv_bounds m x : rqs_wf m -> rq_lo m <= x <= rq_hi m -> rq_lo_out m <= Fv m x <= rq_hi_out m.
Proof.
  intros W H. pose proof (Fv_lo_value m W). pose proof (Fv_hi_value m W). split.
  - destruct (Req_EM_T x (rq_lo m)) as [->|]; [lra|]. pose proof (Fv_incr m W (rq_lo m) x ltac:(lra)). lra.
  - destruct (Req_EM_T x (rq_hi m)) as [->|]; [lra|]. pose proof (Fv_incr m W x (rq_hi m) ltac:(lra)). lra.
Qed.

(** ** Output bounds in the wrong order *)
Lemma crossed_endpoints m : rq_lo m < rq_hi m -> rq_hi_out m < rq_lo_out m -> 0 < rq_slope m ->
  exists x y l x' y' l', x < x' /\ rq_transform m false x = Ok (y, l) /\ rq_transform m false x' = Ok (y', l') /\ y' < y.
Proof.
  intros Hlh Hc Hs. set (e := (rq_lo_out m - rq_hi_out m) / (4 * rq_slope m)).
  assert (He : 0 < e) by (apply Rdiv_lt_0_compat; lra).
  exists (rq_lo m - e), (rq_lo_out m + (rq_lo m - e - rq_lo m) * rq_slope m), 0,
    (rq_hi m + e), (rq_hi_out m + (rq_hi m + e - rq_hi m) * rq_slope m), 0.
  split; [lra|]. unfold rq_transform. cbv iota zeta. split; [|split].
  - destruct (Rlt_dec (rq_hi m) _); [lra|]. destruct (Rlt_dec _ (rq_lo m)); [reflexivity|lra].
  - destruct (Rlt_dec (rq_hi m) _); [reflexivity|lra].
  - assert (e * rq_slope m = (rq_lo_out m - rq_hi_out m) / 4) by (unfold e; field; lra).
    replace ((rq_lo m - e - rq_lo m) * rq_slope m) with (- (e * rq_slope m)) by ring.
    replace ((rq_hi m + e - rq_hi m) * rq_slope m) with (e * rq_slope m) by ring. lra.
Qed.
