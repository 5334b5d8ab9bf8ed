(** Tangents of the log-probabilities of softmax and graded items. *)
From Verif Require Import Base BaseFacts RBase RFacts M_Data M_Logit M_Lik M_Est S_Logit S_Lik S_Est P_Logit P_Logit2 P_Spline4 P_Pop6 S_Info P_Info2 P_Info3 P_Nest1 S_Opt.
Import List.
Local Open Scope R_scope.

Lemma sumn_nonneg_zero n f : (forall i, (i < n)%nat -> 0 <= f i) -> sumn n f = 0 -> forall i, (i < n)%nat -> f i = 0.
Proof.
  induction n as [|n IH]; intros Hf HS i Hi; [lia|]. cbn [sumn] in HS.
  assert (0 <= sumn n f) by (apply sumn_nonneg; intros; apply Hf; lia). pose proof (Hf n ltac:(lia)).
  destruct (Nat.eq_dec i n) as [->|Hne]; [lra|]. apply IH; [intros; apply Hf; lia|lra|lia].
Qed.
(** ** Jensen's inequality for weights and exponents *)
Section Jensen.
  Variables (K : nat) (q e : nat -> R).
  Hypothesis Hq : forall j, (j < K)%nat -> 0 < q j.
  Hypothesis Hs : sumn K q = 1.
  Let A := ln (sumn K (fun j => q j * exp (e j))).
  Local Lemma total_pos : 0 < sumn K (fun j => q j * exp (e j)).
  Proof using Hq Hs.
    destruct K as [|n]; [cbn in Hs; lra|]. cbn [sumn]. assert (0 <= sumn n (fun j => q j * exp (e j))) by (apply sumn_nonneg; intros j Hj; pose proof (Hq j ltac:(lia)); pose proof (exp_pos (e j)); nra).
    pose proof (Hq n ltac:(lia)). pose proof (exp_pos (e n)). nra.
  Qed.
  Local Lemma tilted : sumn K (fun j => q j * exp (e j - A)) = 1.
  Proof using Hq Hs.
    rewrite (sumn_ext K (fun j => q j * exp (e j - A)) (fun j => exp (- A) * (q j * exp (e j)))); [|intros j Hj; unfold Rminus; rewrite exp_plus; ring].
    rewrite sumn_scal, exp_Ropp. unfold A. rewrite exp_ln by apply total_pos. apply Rinv_l. pose proof total_pos. lra.
  Qed.
  Local Lemma excess : sumn K (fun j => q j * (exp (e j - A) - 1 - (e j - A))) = A - sumn K (fun j => q j * e j).
  Proof using Hq Hs.
    rewrite (sumn_ext K _ (fun j => q j * exp (e j - A) - (q j * (1 - A) + q j * e j))); [|intros j Hj; ring].
    rewrite sumn_minus, tilted, sumn_plus. rewrite (sumn_ext K (fun j => q j * (1 - A)) (fun j => (1 - A) * q j)) by (intros; ring). rewrite sumn_scal, Hs. ring.
  Qed.
  Lemma jensen : sumn K (fun j => q j * e j) <= ln (sumn K (fun j => q j * exp (e j))).
  Proof using Hq Hs.
    fold A. assert (0 <= A - sumn K (fun j => q j * e j)); [|lra]. rewrite <- excess. apply sumn_nonneg. intros j Hj. pose proof (Hq j Hj). pose proof (exp_ineq1_le (e j - A)). cbv beta. apply Rmult_le_pos; lra.
  Qed.
  Lemma jensen_strict : sumn K (fun j => q j * e j) = ln (sumn K (fun j => q j * exp (e j))) -> forall j, (j < K)%nat -> e j = ln (sumn K (fun j => q j * exp (e j))).
  Proof using Hq Hs.
    fold A. intros E j Hj. pose proof excess as X. rewrite E, Rminus_diag_eq in X by reflexivity. pose proof (sumn_nonneg_zero K (fun j => q j * (exp (e j - A) - 1 - (e j - A))) ltac:(intros i Hi; pose proof (Hq i Hi); pose proof (exp_ineq1_le (e i - A)); cbv beta; apply Rmult_le_pos; lra) X j Hj) as Z. cbv beta in Z.
    destruct (Req_dec (e j - A) 0) as [H0|H0]; [lra|]. pose proof (exp_ineq1 _ H0). pose proof (Rmult_lt_0_compat _ (exp (e j - A) - 1 - (e j - A)) (Hq j Hj) ltac:(lra)). lra.
  Qed.
End Jensen.

(** ** Softmax items *)
Section Soft.
  Variables (lv K : nat) (z : list R -> nat -> R) (b : nat -> nat -> R).
  Hypothesis HK : (1 <= K)%nat.
  (** The logits are affine with slopes [b]. *)
  Hypothesis Haff : forall t t' k, length t = lv -> length t' = lv -> (k < K)%nat -> z t' k = z t k + sumn lv (fun d => b k d * (nth d t' 0 - nth d t 0)).
  Definition soft_gradient (t : list R) (k d : nat) : R := b k d - sumn K (fun j => category_probability K (z t) j * b j d).
  Local Lemma aff_upd t k d x : length t = lv -> (d < lv)%nat -> (k < K)%nat -> z (upd d x t) k = z t k + b k d * (x - nth d t 0).
  Proof using HK Haff.
    intros Ht Hd Hk. rewrite (Haff t (upd d x t) k Ht) by (auto; now rewrite upd_length). f_equal.
    rewrite (sumn_single lv d); [|exact Hd|].
    - now rewrite (nth_error_nth _ d 0 (nth_error_upd_eq d x t ltac:(lia))).
    - intros e He Hne. rewrite (nth_error_nth (upd d x t) e 0 (x := nth e t 0)); [ring|]. rewrite nth_error_upd_neq by auto. apply nth_error_nth_lt. lia.
  Qed.
  Local Lemma soft_partial t k d : length t = lv -> (d < lv)%nat -> (k < K)%nat -> partial_is (fun t => ln (category_probability K (z t) k)) t d (soft_gradient t k d).
  Proof using HK Haff.
    intros Ht Hd Hk. unfold partial_is.
    apply (derivable_ext (fun x => ln (category_probability K (fun j => z t j + b j d * (x - nth d t 0)) k))).
    { intro x. f_equal. apply cp_ext; [exact Hk|]. intros j Hj. symmetry. now apply aff_upd. }
    pose proof (softmax_derivative K (z t) (fun j => b j d) (nth d t 0) k HK) as D. pose proof (category_probability_pos K (z t) k HK) as HP.
    assert (E : category_probability K (fun j => z t j + b j d * (nth d t 0 - nth d t 0)) k = category_probability K (z t) k) by (apply cp_ext; [exact Hk|]; intros; ring).
    pose proof (derivable_pt_lim_comp _ ln _ _ (/ category_probability K (z t) k) D) as H. cbv beta in H. rewrite E in H. specialize (H (derivable_pt_lim_ln _ HP)).
    unfold soft_gradient. replace (b k d - sumn K (fun j => category_probability K (z t) j * b j d)) with (/ category_probability K (z t) k * (category_probability K (z t) k * (b k d - category_mean K (category_probability K (z t)) (fun j => b j d)))); [exact H|].
    unfold category_mean. field. lra.
  Qed.
  (** The change of the log-probability. *)
  Local Lemma soft_change t t' k : length t = lv -> length t' = lv -> (k < K)%nat ->
    ln (category_probability K (z t') k) = ln (category_probability K (z t) k) + (z t' k - z t k) - ln (sumn K (fun j => category_probability K (z t) j * exp (z t' j - z t j))).
  Proof using HK.
    intros Ht Ht' Hk. pose proof (sum_exp_pos K (z t) HK) as S1. pose proof (sum_exp_pos K (z t') HK) as S2.
    assert (E : sumn K (fun j => category_probability K (z t) j * exp (z t' j - z t j)) = sumn K (fun j => exp (z t' j)) / sumn K (fun j => exp (z t j))).
    { rewrite <- sumn_div. apply sumn_ext. intros j Hj. unfold category_probability, Rminus. rewrite exp_plus, exp_Ropp. field. pose proof (exp_pos (z t j)). split; lra. }
    rewrite E. unfold category_probability, Rdiv. rewrite !ln_mult, !ln_Rinv, !ln_exp; try apply exp_pos; try apply Rinv_0_lt_compat; try assumption. ring.
  Qed.
  Local Lemma soft_slope t t' k : length t = lv -> length t' = lv -> (k < K)%nat ->
    sumn lv (fun d => soft_gradient t k d * (nth d t' 0 - nth d t 0)) = (z t' k - z t k) - sumn K (fun j => category_probability K (z t) j * (z t' j - z t j)).
  Proof using HK Haff.
    intros Ht Ht' Hk. unfold soft_gradient.
    rewrite (sumn_ext lv _ (fun d => b k d * (nth d t' 0 - nth d t 0) - sumn K (fun j => category_probability K (z t) j * (b j d * (nth d t' 0 - nth d t 0))))).
    2:{ intros d Hd. rewrite Rmult_minus_distr_r, <- sumn_scal_r. f_equal. apply sumn_ext. intros; ring. }
    rewrite sumn_minus, sumn_swap, (Haff t t' k Ht Ht' Hk). f_equal; [ring|]. apply sumn_ext. intros j Hj. rewrite sumn_scal, (Haff t t' j Ht Ht' Hj). f_equal. ring.
  Qed.
  Lemma soft_tangent t k : length t = lv -> (k < K)%nat ->
    below_tangent lv (fun t => ln (category_probability K (z t) k)) t (soft_gradient t k) /\
    forall t', length t' = lv -> ln (category_probability K (z t') k) = plane lv (fun t => ln (category_probability K (z t) k)) t (soft_gradient t k) t' ->
      (exists c, forall j, (j < K)%nat -> z t' j = z t j - c) /\ forall k', (k' < K)%nat -> category_probability K (z t') k' = category_probability K (z t) k'.
  Proof using HK Haff.
    intros Ht Hk. assert (HP : forall j, (j < K)%nat -> 0 < category_probability K (z t) j) by (intros; now apply category_probability_pos).
    pose proof (category_probability_sum K (z t) HK) as HS. split; [split|].
    - intros d Hd. now apply soft_partial.
    - intros t' Ht'. unfold plane. rewrite (soft_slope t t' k Ht Ht' Hk), (soft_change t t' k Ht Ht' Hk). pose proof (jensen K _ (fun j => z t' j - z t j) HP HS). lra.
    - intros t' Ht' E. unfold plane in E. rewrite (soft_slope t t' k Ht Ht' Hk), (soft_change t t' k Ht Ht' Hk) in E.
      pose proof (jensen_strict K _ (fun j => z t' j - z t j) HP HS ltac:(lra)) as J. cbv beta in J. set (A := ln _) in J.
      assert (C : forall j, (j < K)%nat -> z t' j = z t j - (- A)) by (intros j Hj; specialize (J j Hj); lra). split; [now exists (- A)|]. intros k' Hk'. now apply (cp_shift K (z t) (z t') (- A)).
  Qed.
End Soft.

Lemma predictor_affine lv a t t' : predictor lv a t' = predictor lv a t + sumn lv (fun d => a d * (nth d t' 0 - nth d t 0)).
Proof. unfold predictor. rewrite <- sumn_plus. apply sumn_ext. intros; ring. Qed.

(** ** One gate: the log of a logistic curve *)
Lemma gate_tangent lv (a : nat -> R) c t : length t = lv ->
  let u t := predictor lv a t + c in
  exists g, below_tangent lv (fun t => ln (logistic (u t))) t g /\ forall t', length t' = lv -> ln (logistic (u t')) = plane lv (fun t => ln (logistic (u t))) t g t' -> u t' = u t.
Proof.
  intros Ht u. set (z := fun (t : list R) (k : nat) => if (k =? 1)%nat then u t else 0). set (b := fun (k d : nat) => if (k =? 1)%nat then a d else 0).
  destruct (soft_tangent lv 2 z b ltac:(lia)) with (t := t) (k := 1%nat) as [[P1 P2] P3]; [|exact Ht|lia|].
  - intros s s' k _ _ _. unfold z, b. destruct (k =? 1)%nat; [unfold u; rewrite (predictor_affine lv a s s'); ring|]. rewrite (sumn_ext lv _ (fun _ => 0 * 0)) by (intros; ring). rewrite sumn_scal. ring.
  - assert (E : forall s, category_probability 2 (z s) 1 = logistic (u s)) by (intro s; unfold z; rewrite category_probability_2 by lia; reflexivity).
    exists (soft_gradient 2 z b t 1). unfold plane, below_tangent, partial_is in *. split; [split|].
    + intros d Hd. eapply derivable_ext; [|exact (P1 d Hd)]. intro x. cbv beta. now rewrite E.
    + intros t' Ht'. specialize (P2 t' Ht'). unfold plane in P2. rewrite !E in P2. exact P2.
    + intros t' Ht' Eq. rewrite <- !E in Eq. destruct (P3 t' Ht' Eq) as [(c0 & Hc) _]. pose proof (Hc 0%nat ltac:(lia)) as H0. pose proof (Hc 1%nat ltac:(lia)) as H1. unfold z in H0, H1. cbn [Nat.eqb] in H0, H1. lra.
Qed.
