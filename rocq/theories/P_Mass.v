(** Integrals of the density a flow is trained with. *)
From Verif Require Import Base RBase M_Spline S_Spline S_Mass P_Spline3 P_Spline4.
Local Open Scope R_scope.

Lemma antiderivative_of f Q a b : a <= b -> (forall x, a <= x <= b -> derivable_pt_lim Q x (f x)) -> antiderivative f Q a b.
Proof.
  intros Hab H. split; [|exact Hab]. intros x Hx. exists (exist _ (f x) (H x Hx)). symmetry. apply derive_pt_eq_0. now apply H.
Qed.
Lemma area_unique f a b v v' : area f a b v -> area f a b v' -> v = v'.
Proof.
  intros (Q & HQ & ->) (Q' & HQ' & ->). destruct (antiderivative_Ucte f Q Q' a b HQ HQ') as [c E]. pose proof (proj2 HQ). rewrite (E a), (E b) by lra. ring.
Qed.
Lemma area_join f a b c u v : area f a b u -> area f b c v -> area f a c (u + v).
Proof.
  intros (Q & HQ & ->) (Q' & HQ' & ->). pose proof (proj2 HQ) as H1. pose proof (proj2 HQ') as H2. exists (fun x => match Rle_dec x b with left _ => Q x | right _ => Q' x + (Q b - Q' b) end).
  split; [now apply antiderivative_P2|]. destruct (Rle_dec a b); [|lra]. destruct (Rle_dec c b) as [E|E]; [|ring]. replace c with b by lra. ring.
Qed.
Lemma total_unique D T T' : total_mass D T -> total_mass D T' -> T = T'.
Proof.
  intros H H'. destruct (Req_dec T T') as [|Hne]; [assumption|]. exfalso. set (e := Rabs (T - T') / 2). assert (He : 0 < e) by (unfold e; pose proof (Rabs_pos_lt (T - T') ltac:(lra)); lra).
  destruct (H e He) as (B & HB). destruct (H' e He) as (B' & HB'). set (M := Rmax (Rmax B B') 0 + 1). pose proof (Rmax_l B B'). pose proof (Rmax_r B B'). pose proof (Rmax_l (Rmax B B') 0).
  destruct (HB (- M) M) as (v & A & E); [unfold M; lra|unfold M; lra|]. destruct (HB' (- M) M) as (v' & A' & E'); [unfold M; lra|unfold M; lra|].
  pose proof (area_unique _ _ _ _ _ A A') as ->. assert (Rabs (T - T') < e + e); [|unfold e in *; lra].
  replace (T - T') with ((v' - T') - (v' - T)) by ring. eapply Rle_lt_trans; [apply Rabs_triang|]. rewrite Rabs_Ropp. lra.
Qed.

Section MASS.
Variables (m : rqs) (g G D F L : R -> R).
Hypotheses (W : rqs_wf m) (HG : distribution g G) (HD : reported_density m g D) (HC : computes m false F L).
Lemma density_value x : D x = g (F x) * exp (L x).
Proof using HG HD HC.
  destruct (HD x) as [P E]. unfold flow_log_prob in E. rewrite HC in E. cbn [bind] in E. injection E as E. rewrite <- (exp_ln (D x)) by exact P. rewrite <- E, exp_plus, exp_ln; [reflexivity|apply HG].
Qed.
(** The same spline with unit slope outside has the reported derivative everywhere. *)
Definition unit_tails : rqs := {| rq_bins := rq_bins m; rq_lo := rq_lo m; rq_hi := rq_hi m; rq_lo_out := rq_lo_out m; rq_hi_out := rq_hi_out m;
  rq_min_w := rq_min_w m; rq_min_h := rq_min_h m; rq_min_d := rq_min_d m; rq_slope := 1; rq_w := rq_w m; rq_h := rq_h m; rq_d := rq_d m |}.
Lemma unit_tails_wf : rqs_wf unit_tails.
Proof using W. destruct W. constructor; cbn; auto. lra. Qed.
Lemma unit_tails_inside x : rq_lo m <= x <= rq_hi m -> Fv unit_tails x = F x /\ Lv unit_tails x = L x.
Proof using W HC.
  intro Hx. assert (E : rq_transform unit_tails false x = rq_transform m false x).
  { unfold rq_transform. cbn [unit_tails rq_lo rq_hi]. destruct (Rlt_dec (rq_hi m) x); [lra|]. destruct (Rlt_dec x (rq_lo m)); [lra|]. reflexivity. }
  unfold Fv, Lv. rewrite E, HC. split; reflexivity.
Qed.
Lemma unit_tails_derivative x : rq_lo m <= x <= rq_hi m -> derivable_pt_lim (Fv unit_tails) x (exp (L x)).
Proof using W HC.
  intro Hx. destruct (unit_tails_inside x Hx) as [_ E]. destruct (Req_dec x (rq_lo m)) as [E1|E1]; [|destruct (Req_dec x (rq_hi m)) as [E2|E2]].
  - rewrite (Lv_kink m x F L) by auto. rewrite exp_0. apply Fv_deriv_ends; [exact unit_tails_wf|reflexivity|left; exact E1].
  - rewrite (Lv_kink m x F L) by auto. rewrite exp_0. apply Fv_deriv_ends; [exact unit_tails_wf|reflexivity|right; exact E2].
  - rewrite <- E. apply Fv_deriv; [exact unit_tails_wf|]. cbn. lra.
Qed.
Lemma area_inside a b : rq_lo m <= a -> a <= b -> b <= rq_hi m -> area D a b (G (F b) - G (F a)).
Proof using W HG HD HC.
  intros Ha Hab Hb. exists (fun x => G (Fv unit_tails x)). split.
  - apply antiderivative_of; [exact Hab|]. intros x Hx. rewrite density_value. destruct (unit_tails_inside x) as [E _]; [lra|]. rewrite <- E.
    apply (derivable_pt_lim_comp (Fv unit_tails) G); [apply unit_tails_derivative; lra|apply HG].
  - destruct (unit_tails_inside a) as [-> _]; [lra|]. destruct (unit_tails_inside b) as [-> _]; [lra|]. reflexivity.
Qed.
Lemma forward_low x : x <= rq_lo m -> F x = rq_lo_out m + (x - rq_lo m) * rq_slope m /\ L x = 0.
Proof using W HC.
  intro Hx. destruct Hx as [Hx| ->].
  - pose proof (HC x) as E. unfold rq_transform in E. pose proof (wf_in m W). destruct (Rlt_dec (rq_hi m) x); [lra|]. destruct (Rlt_dec x (rq_lo m)); [|lra]. injection E as E1 E2. split; auto.
  - destruct (computes_forward m F L W HC (rq_lo m)) as [-> ->]. rewrite Fv_lo_value, Lv_ends by auto. split; [ring|reflexivity].
Qed.
Lemma forward_high x : rq_hi m <= x -> F x = rq_hi_out m + (x - rq_hi m) * rq_slope m /\ L x = 0.
Proof using W HC.
  intro Hx. destruct Hx as [Hx|<-].
  - pose proof (HC x) as E. unfold rq_transform in E. destruct (Rlt_dec (rq_hi m) x); [|lra]. injection E as E1 E2. split; auto.
  - destruct (computes_forward m F L W HC (rq_hi m)) as [-> ->]. rewrite Fv_hi_value, Lv_ends by auto. split; [ring|reflexivity].
Qed.
Lemma tail_derivative c x0 x : derivable_pt_lim (fun x => G (c + (x - x0) * rq_slope m) / rq_slope m) x (g (c + (x - x0) * rq_slope m)).
Proof using W HG.
  pose proof (wf_slope m W) as HS. assert (DA : derivable_pt_lim (fun x => c + (x - x0) * rq_slope m) x (rq_slope m)).
  { cut (derivable_pt_lim (fun x => c + (x - x0) * rq_slope m) x (0 + ((1 - 0) * rq_slope m + (x - x0) * 0))).
    { intro Q. replace (0 + ((1 - 0) * rq_slope m + (x - x0) * 0)) with (rq_slope m) in Q by ring. exact Q. }
    apply (derivable_pt_lim_plus (fun _ => c) (fun x => (x - x0) * rq_slope m)); [apply derivable_pt_lim_const|].
    apply (derivable_pt_lim_mult (fun x => x - x0) (fun _ => rq_slope m)); [|apply derivable_pt_lim_const]. apply (derivable_pt_lim_minus (fun x => x) (fun _ => x0)); [apply derivable_pt_lim_id|apply derivable_pt_lim_const]. }
  pose proof (derivable_pt_lim_comp _ G _ _ _ DA (di_deriv g G HG _)) as DC.
  pose proof (derivable_pt_lim_scal _ (/ rq_slope m) _ _ DC) as DS. replace (g (c + (x - x0) * rq_slope m)) with (/ rq_slope m * (g (c + (x - x0) * rq_slope m) * rq_slope m)) by (field; lra).
  eapply derivable_ext; [|exact DS]. intro y. unfold mult_real_fct, comp. unfold Rdiv. ring.
Qed.
Lemma area_low a b : a <= b -> b <= rq_lo m -> area D a b ((G (F b) - G (F a)) / rq_slope m).
Proof using W HG HD HC.
  intros Hab Hb. pose proof (wf_slope m W) as HS. exists (fun x => G (rq_lo_out m + (x - rq_lo m) * rq_slope m) / rq_slope m). split.
  - apply antiderivative_of; [exact Hab|]. intros x Hx. rewrite density_value. destruct (forward_low x) as [-> ->]; [lra|]. rewrite exp_0, Rmult_1_r. apply tail_derivative.
  - destruct (forward_low a) as [-> _]; [lra|]. destruct (forward_low b) as [-> _]; [lra|]. field. lra.
Qed.
Lemma area_high a b : a <= b -> rq_hi m <= a -> area D a b ((G (F b) - G (F a)) / rq_slope m).
Proof using W HG HD HC.
  intros Hab Ha. pose proof (wf_slope m W) as HS. exists (fun x => G (rq_hi_out m + (x - rq_hi m) * rq_slope m) / rq_slope m). split.
  - apply antiderivative_of; [exact Hab|]. intros x Hx. rewrite density_value. destruct (forward_high x) as [-> ->]; [lra|]. rewrite exp_0, Rmult_1_r. apply tail_derivative.
  - destruct (forward_high a) as [-> _]; [lra|]. destruct (forward_high b) as [-> _]; [lra|]. field. lra.
Qed.
(** The probability the base distribution gives the output interval. *)
Definition inner : R := G (rq_hi_out m) - G (rq_lo_out m).
Lemma area_all a b : a <= rq_lo m -> rq_hi m <= b -> area D a b ((G (F b) - G (F a) - inner) / rq_slope m + inner).
Proof using W HG HD HC.
  intros Ha Hb. pose proof (wf_in m W). pose proof (wf_slope m W) as HS.
  pose proof (area_join _ _ _ _ _ _ (area_join _ _ _ _ _ _ (area_low a (rq_lo m) Ha ltac:(lra)) (area_inside (rq_lo m) (rq_hi m) ltac:(lra) ltac:(lra) ltac:(lra))) (area_high (rq_hi m) b Hb ltac:(lra))) as Q.
  destruct (forward_low (rq_lo m)) as [E1 _]; [lra|]. destruct (forward_high (rq_hi m)) as [E2 _]; [lra|]. rewrite E1, E2 in Q. rewrite !Rminus_eq_0, !Rmult_0_l, !Rplus_0_r in Q. unfold inner.
  match type of Q with area _ _ _ ?v => replace ((G (F b) - G (F a) - (G (rq_hi_out m) - G (rq_lo_out m))) / rq_slope m + (G (rq_hi_out m) - G (rq_lo_out m))) with v; [exact Q|] end. field. lra.
Qed.
Lemma total_all : total_mass D ((1 - inner) / rq_slope m + inner).
Proof using W HG HD HC.
  pose proof (wf_slope m W) as HS. set (s := rq_slope m) in *. intros eps He. assert (He2 : 0 < eps * s / 2) by (assert (0 < eps * s) by (now apply Rmult_lt_0_compat); lra).
  destruct (di_below g G HG _ He2) as (B1 & HB1). destruct (di_above g G HG _ He2) as (B2 & HB2).
  (** beyond B the transformed values are beyond B1 and B2 *)
  set (B := Rmax (Rmax (- rq_lo m) (rq_hi m)) (Rmax (- (rq_lo m + (- B1 - rq_lo_out m) / s)) (rq_hi m + (B2 - rq_hi_out m) / s))).
  exists B. intros a b Ha Hb.
  pose proof (Rmax_l (Rmax (- rq_lo m) (rq_hi m)) (Rmax (- (rq_lo m + (- B1 - rq_lo_out m) / s)) (rq_hi m + (B2 - rq_hi_out m) / s))) as M1. pose proof (Rmax_r (Rmax (- rq_lo m) (rq_hi m)) (Rmax (- (rq_lo m + (- B1 - rq_lo_out m) / s)) (rq_hi m + (B2 - rq_hi_out m) / s))) as M2. fold B in M1, M2.
  pose proof (Rmax_l (- rq_lo m) (rq_hi m)). pose proof (Rmax_r (- rq_lo m) (rq_hi m)). pose proof (Rmax_l (- (rq_lo m + (- B1 - rq_lo_out m) / s)) (rq_hi m + (B2 - rq_hi_out m) / s)). pose proof (Rmax_r (- (rq_lo m + (- B1 - rq_lo_out m) / s)) (rq_hi m + (B2 - rq_hi_out m) / s)).
  exists ((G (F b) - G (F a) - inner) / s + inner). split; [apply area_all; lra|].
  assert (FA : F a < - B1).
  { destruct (forward_low a) as [-> _]; [lra|]. fold s. assert (K : (a - rq_lo m) * s < (- B1 - rq_lo_out m) / s * s) by (apply Rmult_lt_compat_r; lra). replace ((- B1 - rq_lo_out m) / s * s) with (- B1 - rq_lo_out m) in K by (field; lra). lra. }
  assert (FB : B2 < F b).
  { destruct (forward_high b) as [-> _]; [lra|]. fold s. assert (K : (B2 - rq_hi_out m) / s * s < (b - rq_hi m) * s) by (apply Rmult_lt_compat_r; lra). replace ((B2 - rq_hi_out m) / s * s) with (B2 - rq_hi_out m) in K by (field; lra). lra. }
  specialize (HB1 _ FA). specialize (HB2 _ FB).
  replace ((G (F b) - G (F a) - inner) / s + inner - ((1 - inner) / s + inner)) with (((G (F b) - 1) - G (F a)) / s) by (field; lra).
  unfold Rdiv. rewrite Rabs_mult, (Rabs_right (/ s)) by (apply Rle_ge, Rlt_le, Rinv_0_lt_compat, HS).
  assert (K : Rabs (G (F b) - 1 - G (F a)) < eps * s). { eapply Rle_lt_trans; [apply Rabs_triang|]. rewrite Rabs_Ropp. lra. }
  apply (Rmult_lt_compat_r (/ s)) in K; [|now apply Rinv_0_lt_compat]. replace (eps * s * / s) with eps in K by (field; lra). exact K.
Qed.
Lemma increasing x y : x < y -> G x < G y.
Proof using HG.
  intro H. destruct (MVT_cor2 G g x y H ltac:(intros; apply HG)) as (c & E & _). pose proof (di_pos g G HG c). assert (0 < g c * (y - x)) by (apply Rmult_lt_0_compat; lra). lra.
Qed.
Lemma inner_bounds : 0 < inner < 1.
Proof using W HG.
  unfold inner. pose proof (increasing _ _ (wf_out m W)). split; [lra|].
  assert (B1 : G (rq_hi_out m + 1) <= 1).
  { apply Rnot_lt_le. intro K. destruct (di_above g G HG (G (rq_hi_out m + 1) - 1) ltac:(lra)) as (B & HB). set (x := Rmax B (rq_hi_out m + 1) + 1). pose proof (Rmax_l B (rq_hi_out m + 1)). pose proof (Rmax_r B (rq_hi_out m + 1)).
    specialize (HB x ltac:(unfold x; lra)). pose proof (increasing (rq_hi_out m + 1) x ltac:(unfold x; lra)). rewrite Rabs_right in HB by lra. lra. }
  assert (B0 : 0 <= G (rq_lo_out m)).
  { apply Rnot_lt_le. intro K. destruct (di_below g G HG (- G (rq_lo_out m)) ltac:(lra)) as (B & HB). set (x := Rmin (- B) (rq_lo_out m) - 1). pose proof (Rmin_l (- B) (rq_lo_out m)). pose proof (Rmin_r (- B) (rq_lo_out m)).
    specialize (HB x ltac:(unfold x; lra)). pose proof (increasing x (rq_lo_out m) ltac:(unfold x; lra)). rewrite Rabs_left in HB by lra. lra. }
  pose proof (increasing (rq_hi_out m) (rq_hi_out m + 1) ltac:(lra)). lra.
Qed.
End MASS.
Lemma density_exists m g : rqs_wf m -> (forall x, 0 < g x) -> exists D, reported_density m g D.
Proof.
  intros W Hg. destruct (computes_exists m false W) as (F & L & H). exists (fun x => g (F x) * exp (L x)). intro x. pose proof (Hg (F x)). pose proof (exp_pos (L x)). split; [now apply Rmult_lt_0_compat|].
  unfold flow_log_prob. rewrite H. cbn [bind]. now rewrite ln_mult, ln_exp by assumption.
Qed.
