(** Proofs: gradients and information of the monotone B-spline model. *)
From Coq Require Import String.
From Verif Require Import Base BaseFacts RBase RFacts M_Logit S_Logit P_Logit P_Logit2 P_Logit4 M_Mono M_Lik M_Est M_Stat S_Stat P_Spline4 P_Mono1 P_Mono8 M_Scale S_Scale P_Pop5 P_Pop6
  M_Info S_Info P_Info1 P_Info2 P_Info3 M_BSpl S_BSpl P_BSpl1 P_BSpl2 P_BSpl3 P_BSpl4 M_BGrad S_BGrad P_BGrad1.
Import List.
Local Open Scope R_scope.

Lemma logistic_inj x y : logistic x = logistic y -> x = y.
Proof. intro H. apply Rle_antisym; apply logistic_le_iff; lra. Qed.
Lemma derivative_unfold t p q i x : p = S q -> bbasis_derivative t p i x =
  INR p * (ratio (bbasis t q i x) (t (i + p)%nat - t i) - ratio (bbasis t q (S i) x) (t (S i + p)%nat - t (S i))).
Proof. intros ->. reflexivity. Qed.
Section Rows.
  Variables (p : nat) (knots : option (list R)).
  Hypothesis ordered : in_order (user_knots knots).
  Let kv := knot_vector p knots.
  Let n := n_bases p kv.
  Lemma derivative_kseq x b : (b < n)%nat -> bbasis_derivative (fun j => nth j kv 0) p b x = bbasis_derivative (kseq kv) p b x.
  Proof using .
    intro Hb. assert (HL : forall j, (j <= S b + p)%nat -> nth j kv 0 = kseq kv j).
    { intros j Hj. symmetry. apply kseq_in. unfold n, kv in *. rewrite n_bases_knots in Hb. rewrite knot_vector_length. lia. }
    unfold bbasis_derivative. destruct p as [|q] eqn:Ep; [reflexivity|].
    rewrite !HL by lia. rewrite (bbasis_ext (fun j => nth j kv 0) (kseq kv) q b x), (bbasis_ext (fun j => nth j kv 0) (kseq kv) q (S b) x) by (intros; apply HL; lia). reflexivity.
  Qed.
  Lemma kseq_is j theta : kseq kv j = logistic theta -> (p + 1 <= j < p + 1 + length (user_knots knots))%nat /\ nth_error (user_knots knots) (j - (p + 1)) = Some theta.
  Proof using .
    intro E. unfold kv in E. rewrite kseq_knots in E. pose proof (logistic_bounds theta). destruct (Nat.ltb_spec j (p + 1)); [lra|].
    destruct (Nat.ltb_spec j (p + 1 + length (user_knots knots))); [|lra]. split; [lia|]. apply logistic_inj in E. rewrite <- E. apply nth_error_nth_lt. lia.
  Qed.
  Lemma basis_derivable theta b : (b < n)%nat -> smooth_at p (user_knots knots) theta ->
    derivable_pt_lim (bbasis (fun j => nth j kv 0) p b) (logistic theta) (bbasis_derivative (fun j => nth j kv 0) p b (logistic theta)).
  Proof using ordered.
    intros Hb H. rewrite derivative_kseq by exact Hb. apply (derivable_ext (bbasis (kseq kv) p b)).
    - intro x. symmetry. apply (B_kseq p knots x b Hb).
    - destruct H as [H|(Hp & H)].
      + apply bbasis_derivable; [now apply kseq_sorted|]. intros j _ E. apply H. apply kseq_is in E as [_ E]. eapply nth_error_In; eauto.
      + apply bbasis_derivable_from_two; [now apply kseq_sorted|exact Hp|]. intros k l Hk Hl E1 E2.
        apply kseq_is in E1 as [B1 E1]. apply kseq_is in E2 as [B2 E2]. pose proof (H _ _ E1 E2). lia.
  Qed.
  Lemma combination_derivable theta (c : nat -> R) : smooth_at p (user_knots knots) theta ->
    derivable_pt_lim (fun x => sumn n (fun b => c b * bbasis (fun j => nth j kv 0) p b x)) (logistic theta) (sumn n (fun b => c b * bbasis_derivative (fun j => nth j kv 0) p b (logistic theta))).
  Proof using ordered.
    intro H. apply (derivable_sum n (fun b x => c b * bbasis (fun j => nth j kv 0) p b x)). intros b Hb. apply (derivable_pt_lim_scal (bbasis (fun j => nth j kv 0) p b)). now apply basis_derivable.
  Qed.
  Lemma spline_derivable c theta : smooth_at p (user_knots knots) theta -> derivable_pt_lim (spline_value p kv c) theta (spline_slope p kv c theta).
  Proof using ordered.
    intro H. pose proof (derivable_pt_lim_comp logistic _ theta _ _ (logistic_derivative theta) (combination_derivable theta (fun b => sumn (S b) (fun j => softplus (c j))) H)) as D.
    unfold comp in D. unfold spline_slope. fold n. rewrite Rmult_comm.
    rewrite (sumn_ext n (fun b => bbasis_derivative (fun j => nth j kv 0) p b (logistic theta) * sumn (S b) (fun j => softplus (c j)))
      (fun b => sumn (S b) (fun j => softplus (c j)) * bbasis_derivative (fun j => nth j kv 0) p b (logistic theta))) by (intros; ring).
    apply (derivable_ext (fun x => sumn n (fun b => sumn (S b) (fun j => softplus (c j)) * bbasis (fun j => nth j kv 0) p b (logistic x)))); [|exact D].
    intro x. unfold spline_value. fold n. apply sumn_ext. intros; ring.
  Qed.
  (** Sums of derivatives from one basis function on. *)
  Lemma derivative_tail q x j : p = S q -> x < 1 -> (j <= n)%nat ->
    sumn n (fun b => bbasis_derivative (fun k => nth k kv 0) p b x) - sumn j (fun b => bbasis_derivative (fun k => nth k kv 0) p b x)
    = INR p * ratio (bbasis (kseq kv) q j x) (kseq kv (j + p)%nat - kseq kv j).
  Proof using ordered.
    intros Ep Hx. remember (n - j)%nat as r eqn:Er. revert j Er. induction r as [|r IH]; intros j Er Hj.
    - assert (j = n) by lia. subst j. rewrite Rminus_diag_eq by reflexivity. rewrite bbasis_outside; [unfold ratio; destruct (Req_EM_T _ 0); unfold Rdiv; ring|now apply kseq_sorted|].
      left. unfold n, kv. rewrite kseq_top. exact Hx.
    - specialize (IH (S j) ltac:(lia) ltac:(lia)). cbn [sumn] in IH. rewrite (derivative_kseq x j), (derivative_unfold _ p q j x Ep) in IH by lia. lra.
  Qed.
  Lemma slope_positive c theta : (1 <= p)%nat -> 0 < spline_slope p kv c theta.
  Proof using ordered.
    intro Hp. unfold spline_slope. fold n. set (x := logistic theta). pose proof (logistic_bounds theta) as Hx. fold x in Hx. apply Rmult_lt_0_compat; [nra|].
    assert (Ep : p = S (p - 1)) by lia. set (q := (p - 1)%nat) in *.
    rewrite (abel n (fun b => bbasis_derivative (fun j => nth j kv 0) p b x) (fun j => softplus (c j))).
    pose proof (kseq_sorted p knots ordered) as HS. fold kv in HS.
    assert (N : forall j, 0 <= ratio (bbasis (kseq kv) q j x) (kseq kv (j + p)%nat - kseq kv j)).
    { intro j. apply ratio_nonneg; [now apply bbasis_nonneg|]. pose proof (HS j (j + p)%nat ltac:(lia)). lra. }
    assert (P : 0 < INR p) by (apply lt_0_INR; lia).
    assert (S1 : 0 < sumn n (fun b => bbasis (kseq kv) q b x)).
    { pose proof (btail_one (kseq kv) HS n q 0 x) as E. unfold btail in E. rewrite Nat.sub_0_r in E. cbn [Nat.add] in E. rewrite E; [lra| |].
      - unfold n, kv. rewrite kseq_top. lra.
      - unfold kv. rewrite kseq_bottom by lia. lra. }
    destruct (positive_term _ _ S1) as (j & Hj & Hb). apply (RFacts.sumn_pos_one n _ j); [|exact Hj|].
    - intros k Hk. rewrite (derivative_tail q x k Ep) by (lra || lia). pose proof (softplus_pos (c k)). apply Rmult_le_pos; [lra|]. apply Rmult_le_pos; [lra|apply N].
    - rewrite (derivative_tail q x j Ep) by (lra || lia). pose proof (softplus_pos (c j)). unfold ratio. destruct (Req_EM_T (kseq kv (j + p)%nat - kseq kv j) 0) as [E|E].
      + exfalso. rewrite (bbasis_empty (kseq kv) HS q j x) in Hb; [lra|]. replace (S j + q)%nat with (j + p)%nat by lia. lra.
      + pose proof (HS j (j + p)%nat ltac:(lia)). apply Rmult_lt_0_compat; [assumption|]. apply Rmult_lt_0_compat; [exact P|]. apply Rmult_lt_0_compat; [exact Hb|]. apply Rinv_0_lt_compat. lra.
  Qed.
  Lemma slope_degree_zero c theta : p = 0%nat -> spline_slope p kv c theta = 0.
  Proof using .
    intros ->. unfold spline_slope. rewrite (sumn_ext _ _ (fun _ => 0)) by (intros; cbn [bbasis_derivative]; ring). rewrite sumn_0. ring.
  Qed.
End Rows.

Lemma exp_derivative f x0 s : derivable_pt_lim f x0 s -> derivable_pt_lim (fun x => exp (f x)) x0 (s * exp (f x0)).
Proof. intro H. pose proof (derivable_pt_lim_comp f exp x0 s _ H (derivable_pt_lim_exp _)) as E. rewrite Rmult_comm. exact E. Qed.
Lemma softmax_derivative_general K (z : R -> nat -> R) (s : nat -> R) x0 k : (1 <= K)%nat -> (k < K)%nat -> (forall j, (j < K)%nat -> derivable_pt_lim (fun x => z x j) x0 (s j)) ->
  derivable_pt_lim (fun x => category_probability K (z x) k) x0 (category_probability K (z x0) k * (s k - category_mean K (category_probability K (z x0)) s)).
Proof.
  intros HK Hk H. pose proof (sum_exp_pos K (z x0) HK) as HS. set (S0 := sumn K (fun j => exp (z x0 j))) in *.
  assert (D : derivable_pt_lim (fun x => sumn K (fun j => exp (z x j))) x0 (sumn K (fun j => s j * exp (z x0 j)))).
  { apply (derivable_sum K (fun j x => exp (z x j))). intros j Hj. apply (exp_derivative (fun x => z x j)). now apply H. }
  pose proof (derivable_pt_lim_div _ _ _ _ _ (exp_derivative (fun x => z x k) x0 (s k) (H k Hk)) D) as E. cbv beta in E. fold S0 in E. specialize (E ltac:(lra)).
  unfold category_probability at 1. unfold div_fct in E.
  match type of E with derivable_pt_lim _ _ ?l => match goal with |- derivable_pt_lim _ _ ?m => replace m with l; [exact E|] end end.
  unfold category_mean, category_probability. fold S0.
  rewrite (sumn_ext K (fun j => exp (z x0 j) / S0 * s j) (fun j => s j * exp (z x0 j) / S0)) by (intros; field; lra). rewrite sumn_div. unfold Rsqr. field. lra.
Qed.

Section Model.
  Context (m : bspl) (knots : option (list R)) (Hm : bs_ok m) (HK : bs_knots m = knot_vector (bs_degree m) knots) (HO : in_order (user_knots knots)).
  Lemma logit_derivable t i k d : length t = bs_lv m -> (d < bs_lv m)%nat -> smooth_at (bs_degree m) (user_knots knots) (nth d t 0) ->
    derivable_pt_lim (fun x => bspline_logit m (upd d x t) i k) (nth d t 0) (logit_slope m t i k d).
  Proof using Hm HK HO.
    intros Lt Hd HS. unfold bspline_logit, logit_slope. rewrite HK. destruct Hm as (_ & _ & H3 & _). destruct (bs_by_item m).
    - set (g := fun e x => spline_value (bs_degree m) (knot_vector (bs_degree m) knots) (shared_increment m e i) x).
      assert (D : derivable_pt_lim (fun x => sumn (bs_lv m) (fun e => g e (nth e (upd d x t) 0))) (nth d t 0)
        (sumn (bs_lv m) (fun e => if (e =? d)%nat then spline_slope (bs_degree m) (knot_vector (bs_degree m) knots) (shared_increment m d i) (nth d t 0) else 0))).
      { apply (derivable_sum (bs_lv m) (fun e x => g e (nth e (upd d x t) 0))). intros e He. destruct (Nat.eqb_spec e d) as [->|Hn].
        - apply (derivable_ext (g d)); [|now apply spline_derivable]. intro x. f_equal. symmetry. apply nth_error_nth. apply nth_error_upd_eq. lia.
        - apply (derivable_ext (fun _ => g e (nth e t 0))); [|apply derivable_pt_lim_const]. intro x. f_equal. symmetry. apply nth_error_nth. rewrite nth_error_upd_neq by auto. apply nth_error_nth_lt. lia. }
      rewrite (sumn_single (bs_lv m) d) in D; [|exact Hd|intros e _ He; destruct (Nat.eqb_spec e d); [congruence|reflexivity]]. rewrite Nat.eqb_refl in D.
      pose proof (derivable_pt_lim_plus _ _ _ _ _ (derivable_pt_lim_scal _ (INR k) _ _ D) (derivable_pt_lim_const (intercept (bs_cats m) (bs_bias m) i k) (nth d t 0))) as E.
      rewrite Rplus_0_r in E. exact E.
    - destruct H3 as [H3|H3]; [discriminate|]. assert (d = 0%nat) by lia. subst d.
      assert (D : derivable_pt_lim (fun x => sumn k (fun c => spline_value (bs_degree m) (knot_vector (bs_degree m) knots) (own_increment m i (S c)) (nth 0 (upd 0 x t) 0))) (nth 0 t 0)
        (sumn k (fun c => spline_slope (bs_degree m) (knot_vector (bs_degree m) knots) (own_increment m i (S c)) (nth 0 t 0)))).
      { apply (derivable_sum k (fun c x => spline_value (bs_degree m) (knot_vector (bs_degree m) knots) (own_increment m i (S c)) (nth 0 (upd 0 x t) 0))). intros c Hc.
        apply (derivable_ext (spline_value (bs_degree m) (knot_vector (bs_degree m) knots) (own_increment m i (S c)))); [|now apply spline_derivable].
        intro x. f_equal. symmetry. apply nth_error_nth. apply nth_error_upd_eq. lia. }
      pose proof (derivable_pt_lim_plus _ _ _ _ _ D (derivable_pt_lim_const (intercept (bs_cats m) (bs_bias m) i k) (nth 0 t 0))) as E. rewrite Rplus_0_r in E. exact E.
  Qed.
  Lemma bs_reads : reads (bs_lv m) (length (bs_cats m)) (bs_max m) (bs_table m) (soft (bs_cats m) (bspline_logit m)).
  Proof using Hm.
    intros thetas r t i k HF Hr Hi Hk. assert (Hne : thetas <> []) by (intros ->; destruct r; discriminate).
    destruct (bs_probabilities_ok m thetas Hm Hne HF) as (probs & E & _ & HA). unfold bs_table. rewrite E.
    rewrite (HA r t i k (nth i (bs_cats m) O) Hr (nth_error_nth_lt _ _ _ Hi) Hk). reflexivity.
  Qed.
  Lemma bs_bounds i : (i < length (bs_cats m))%nat -> (1 <= nth i (bs_cats m) O <= bs_max m)%nat.
  Proof using Hm.
    intro Hi. pose proof (nth_error_nth_lt _ _ O Hi) as E. apply nth_error_In in E. destruct Hm as (_ & H2 & _). rewrite Forall_forall in H2. split; [now apply H2|now apply list_max_bound].
  Qed.
  Definition bs_partial (t : list R) (i k d : nat) : R := if (k <? nth i (bs_cats m) O)%nat
    then category_probability (nth i (bs_cats m) O) (bspline_logit m t i) k * (logit_slope m t i k d - category_mean (nth i (bs_cats m) O) (category_probability (nth i (bs_cats m) O) (bspline_logit m t i)) (fun j => logit_slope m t i j d)) else 0.
  Lemma bs_partials t : length t = bs_lv m -> (forall d, (d < bs_lv m)%nat -> smooth_at (bs_degree m) (user_knots knots) (nth d t 0)) ->
    partials (bs_lv m) (length (bs_cats m)) (bs_max m) (soft (bs_cats m) (bspline_logit m)) t (bs_partial t).
  Proof using Hm HK HO.
    intros Lt HS i k d Hi Hk Hd. unfold soft, bs_partial. destruct (Nat.ltb_spec k (nth i (bs_cats m) O)) as [Hc|Hc]; [|apply derivable_pt_lim_const].
    pose proof (softmax_derivative_general (nth i (bs_cats m) O) (fun x => bspline_logit m (upd d x t) i) (fun j => logit_slope m t i j d) (nth d t 0) k (proj1 (bs_bounds i Hi)) Hc
      (fun j _ => logit_derivable t i j d Lt Hd (HS d Hd))) as E. cbv beta in E.
    assert (Eu : upd d (nth d t 0) t = t).
    { apply nth_error_ext. intros j. destruct (Nat.eq_dec j d) as [->|Hn]; [rewrite nth_error_upd_eq by lia; symmetry; apply nth_error_nth_lt; lia|now rewrite nth_error_upd_neq by auto]. }
    rewrite Eu in E. exact E.
  Qed.
End Model.
