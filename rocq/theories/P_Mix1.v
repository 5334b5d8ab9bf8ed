(** Lemmas: Cholesky factorisation, triangular systems, and the weighted maximum likelihood estimate of a normal. *)
From Verif Require Import Base BaseFacts RBase RFacts M_Lik M_Est M_Mix.
Local Open Scope R_scope.

Definition lower (L : nat -> nat -> R) := forall i k, (i < k)%nat -> L i k = 0.
Definition pos_diag (d : nat) (L : nat -> nat -> R) := forall k, (k < d)%nat -> 0 < L k k.

Lemma chol_inv n s L : chol n s = Some L ->
  (forall i k, (n <= k)%nat -> L i k = 0) /\ lower L /\ pos_diag n L /\
  (forall j i, (j < n)%nat -> (j <= i)%nat -> sumn (S j) (fun k => L i k * L j k) = s i j).
Proof.
  revert L. induction n as [|n IH]; intros L H.
  - cbn in H. injection H as <-. repeat split; auto; intros ? ?; lia.
  - cbn [chol] in H. destruct (chol n s) as [M|]; [|discriminate]. destruct (IH M eq_refl) as (Hz & Hl & Hp & Hs). clear IH.
    unfold chol_column in H. set (p := s n n - sumn n (fun k => M n k ^ 2)) in *.
    destruct (Rlt_dec 0 p) as [P|]; [|discriminate]. injection H as <-.
    assert (SP : 0 < sqrt p) by now apply sqrt_lt_R0.
    assert (QP : sqrt p * sqrt p = p) by (apply sqrt_sqrt; lra).
    split; [|split; [|split]].
    + intros i k Hk. replace (k =? n)%nat with false by (symmetry; apply Nat.eqb_neq; lia). apply Hz. lia.
    + intros i k Hk. destruct (k =? n)%nat eqn:E.
      * apply Nat.eqb_eq in E. subst k. replace (i <? n)%nat with true by (symmetry; apply Nat.ltb_lt; lia). reflexivity.
      * now apply Hl.
    + intros k Hk. destruct (k =? n)%nat eqn:E.
      * apply Nat.eqb_eq in E. subst k. now rewrite Nat.ltb_irrefl.
      * apply Nat.eqb_neq in E. apply Hp. lia.
    + intros j i Hj Hi. destruct (Nat.eq_dec j n) as [->|Nj].
      * cbn [sumn]. rewrite Nat.eqb_refl, Nat.ltb_irrefl. replace (i <? n)%nat with false by (symmetry; apply Nat.ltb_ge; lia).
        rewrite (sumn_ext n _ (fun k => M i k * M n k)).
        2:{ intros k Hk. now replace (k =? n)%nat with false by (symmetry; apply Nat.eqb_neq; lia). }
        destruct (i =? n)%nat eqn:E.
        -- apply Nat.eqb_eq in E. subst i. rewrite QP. unfold p. rewrite (sumn_ext n (fun k => M n k ^ 2) (fun k => M n k * M n k)) by (intros; ring). ring.
        -- field. lra.
      * rewrite (sumn_ext (S j) _ (fun k => M i k * M j k)); [apply Hs; lia|].
        intros k Hk. now replace (k =? n)%nat with false by (symmetry; apply Nat.eqb_neq; lia).
Qed.

Lemma chol_spec d s L : (forall i j, (i < d)%nat -> (j < d)%nat -> s i j = s j i) -> chol d s = Some L ->
  lower L /\ pos_diag d L /\ (forall i j, (i < d)%nat -> (j < d)%nat -> sumn d (fun k => L i k * L j k) = s i j).
Proof.
  intros Hsym H. destruct (chol_inv d s L H) as (_ & Hl & Hp & Hs). split; [exact Hl|]. split; [exact Hp|].
  assert (G : forall i j, (i < d)%nat -> (j <= i)%nat -> sumn d (fun k => L i k * L j k) = s i j).
  { intros i j Hi Hj. rewrite (sumn_truncate (S j) d); [apply Hs; lia|lia|]. intros k Hk. rewrite (Hl j k) by lia. ring. }
  intros i j Hi Hj. destruct (Nat.le_gt_cases j i) as [Hle|Hgt]; [now apply G|].
  rewrite Hsym by assumption. rewrite <- (G j i) by lia. apply sumn_ext. intros; ring.
Qed.

Lemma solve_stable n m L v i : (i < n)%nat -> (n <= m)%nat -> forward_solve m L v i = forward_solve n L v i.
Proof.
  intros Hi Hm. induction m as [|m IH]; [lia|]. destruct (Nat.eq_dec n (S m)) as [->|N]; [reflexivity|].
  cbn [forward_solve]. replace (i =? m)%nat with false by (symmetry; apply Nat.eqb_neq; lia). apply IH. lia.
Qed.
Lemma solve_spec d L v : lower L -> pos_diag d L -> forall i, (i < d)%nat -> sumn d (fun k => L i k * forward_solve d L v k) = v i.
Proof.
  intros Hl Hp i Hi. rewrite (sumn_truncate (S i) d); [|lia|].
  2:{ intros k Hk. rewrite (Hl i k) by lia. ring. }
  cbn [sumn]. rewrite (sumn_ext i _ (fun k => L i k * forward_solve i L v k)).
  2:{ intros k Hk. f_equal. rewrite (solve_stable i d) by lia. reflexivity. }
  rewrite (solve_stable (S i) d) by lia. cbn [forward_solve]. rewrite Nat.eqb_refl. field. specialize (Hp i Hi). lra.
Qed.
Lemma lower_injective d L z : lower L -> pos_diag d L -> (forall i, (i < d)%nat -> sumn d (fun k => L i k * z k) = 0) ->
  forall i, (i < d)%nat -> z i = 0.
Proof.
  intros Hl Hp H i. induction i as [i IH] using lt_wf_ind. intros Hi. specialize (H i Hi).
  rewrite (sumn_truncate (S i) d) in H; [|lia|].
  2:{ intros k Hk. rewrite (Hl i k) by lia. ring. }
  cbn [sumn] in H. rewrite (sumn_ext i _ (fun _ => 0)) in H.
  2:{ intros k Hk. rewrite IH by lia. ring. }
  rewrite sumn_0 in H. specialize (Hp i Hi). assert (L i i * z i = 0) by lra. apply Rmult_integral in H0. destruct H0; lra.
Qed.
Lemma lower_equal d L a b : lower L -> pos_diag d L ->
  (forall i, (i < d)%nat -> sumn d (fun k => L i k * a k) = sumn d (fun k => L i k * b k)) -> forall i, (i < d)%nat -> a i = b i.
Proof.
  intros Hl Hp H i Hi. apply Rminus_diag_uniq. apply (lower_injective d L (fun i => a i - b i)); auto.
  intros j Hj. rewrite (sumn_ext d _ (fun k => L j k * a k - L j k * b k)) by (intros; ring). rewrite sumn_minus, H by assumption. ring.
Qed.

(** ** The weighted estimate maximises the weighted log density *)
Section Weighted.
  Variables (d N : nat) (X : nat -> nat -> R) (r : nat -> R).
  Let W := sumn N r.
  Hypothesis W_pos : 0 < W.
  Let m j := sumn N (fun n => r n * X n j) / W.
  Let s j k := sumn N (fun n => r n * ((X n j - m j) * (X n k - m k))) / W.
  Variables (L' : nat -> nat -> R).
  Hypothesis L'_low : lower L'.
  Hypothesis L'_pos : pos_diag d L'.
  Hypothesis L'_s : forall i j, (i < d)%nat -> (j < d)%nat -> sumn d (fun k => L' i k * L' j k) = s i j.
  Variables (m0 : nat -> R) (L : nat -> nat -> R).
  Hypothesis L_low : lower L.
  Hypothesis L_pos : pos_diag d L.

  Let z' n := forward_solve d L' (fun i => X n i - m i).
  Let z n := forward_solve d L (fun i => X n i - m0 i).
  Let u := forward_solve d L (fun i => m i - m0 i).
  Let T i k := forward_solve d L (fun a => L' a k) i.

  Lemma centred_sum i : sumn N (fun n => r n * (X n i - m i)) = 0.
  Proof.
    rewrite (sumn_ext N _ (fun n => r n * X n i - r n * m i)) by (intros; ring). rewrite sumn_minus, sumn_scal_r.
    fold W. unfold m. field. lra.
  Qed.
  Lemma z'_sum i : (i < d)%nat -> sumn N (fun n => r n * z' n i) = 0.
  Proof.
    revert i. apply (lower_injective d L'); auto. intros i Hi.
    rewrite <- (centred_sum i).
    rewrite (sumn_ext d _ (fun k => sumn N (fun n => r n * (L' i k * z' n k)))).
    2:{ intros k Hk. rewrite <- sumn_scal. apply sumn_ext. intros; ring. }
    rewrite sumn_swap. apply sumn_ext. intros n Hn. rewrite sumn_scal. f_equal. unfold z'. now apply (solve_spec d L').
  Qed.
  Let V j k := sumn N (fun n => r n * (z' n j * z' n k)).
  Lemma V_id j k : (j < d)%nat -> (k < d)%nat -> V j k = if (j =? k)%nat then W else 0.
  Proof.
    intros Hj Hk. revert j Hj. apply (lower_equal d L' (fun j => V j k)); auto. intros a Ha. cbv beta.
    assert (E : sumn d (fun j => L' a j * V j k) = W * L' a k).
    { revert k Hk. apply (lower_equal d L' (fun k => sumn d (fun j => L' a j * V j k)) (fun k => W * L' a k)); auto. intros b Hb.
      rewrite (sumn_ext d (fun k => L' b k * (W * L' a k)) (fun k => W * (L' a k * L' b k))) by (intros; ring).
      rewrite sumn_scal, L'_s by assumption. unfold s.
      transitivity (sumn N (fun n => r n * ((X n a - m a) * (X n b - m b)))); [|field; lra].
      rewrite (sumn_ext d _ (fun k => sumn d (fun j => sumn N (fun n => r n * ((L' a j * z' n j) * (L' b k * z' n k)))))).
      2:{ intros k Hk. rewrite <- sumn_scal. apply sumn_ext. intros j Hj. unfold V. rewrite <- !sumn_scal. apply sumn_ext. intros; ring. }
      rewrite (sumn_ext d _ (fun k => sumn N (fun n => sumn d (fun j => r n * ((L' a j * z' n j) * (L' b k * z' n k)))))).
      2:{ intros k Hk. apply sumn_swap. }
      rewrite sumn_swap. apply sumn_ext. intros n Hn.
      rewrite (sumn_ext d _ (fun k => r n * ((X n a - m a) * (L' b k * z' n k)))).
      2:{ intros k Hk. rewrite sumn_scal. f_equal. rewrite sumn_scal_r. f_equal. unfold z'. now apply (solve_spec d L'). }
      rewrite sumn_scal, sumn_scal. unfold z'. now rewrite (solve_spec d L'). }
    rewrite E. rewrite (sumn_single d k (fun j => L' a j * (if (j =? k)%nat then W else 0))); [|exact Hk|].
    - rewrite Nat.eqb_refl. ring.
    - intros j Hj Hne. replace (j =? k)%nat with false by (symmetry; apply Nat.eqb_neq; lia). ring.
  Qed.
  Lemma z_split n i : (i < d)%nat -> z n i = sumn d (fun k => T i k * z' n k) + u i.
  Proof.
    revert i. apply (lower_equal d L (z n)); auto. intros i Hi.
    rewrite (sumn_ext d (fun k => L i k * (_ + u k)) (fun k => sumn d (fun a => L i k * (T k a * z' n a)) + L i k * u k)).
    2:{ intros k Hk. rewrite sumn_scal. ring. }
    rewrite sumn_plus. unfold u at 1. rewrite (solve_spec d L) by assumption.
    unfold z at 1. rewrite (solve_spec d L) by assumption.
    rewrite sumn_swap. rewrite (sumn_ext d _ (fun a => L' i a * z' n a)).
    2:{ intros a Ha. rewrite (sumn_ext d _ (fun k => (L i k * T k a) * z' n a)) by (intros; ring).
        rewrite sumn_scal_r. f_equal. unfold T. now rewrite (solve_spec d L). }
    unfold z'. rewrite (solve_spec d L') by assumption. ring.
  Qed.
  Lemma T_upper i k : (k < d)%nat -> (i < k)%nat -> T i k = 0.
  Proof.
    intros Hk. induction i as [i IH] using lt_wf_ind. intros Hi. assert (Hid : (i < d)%nat) by lia.
    pose proof (solve_spec d L (fun a => L' a k) L_low L_pos i Hid) as E. cbv beta in E. fold (T i k) in E.
    rewrite (L'_low i k Hi) in E. rewrite (sumn_truncate (S i) d) in E; [|lia|].
    2:{ intros a Ha. rewrite (L_low i a) by lia. ring. }
    cbn [sumn] in E. rewrite (sumn_ext i _ (fun _ => 0)) in E.
    2:{ intros a Ha. change (forward_solve d L (fun a => L' a k) a) with (T a k). rewrite IH by lia. ring. }
    rewrite sumn_0 in E. specialize (L_pos i Hid). fold (T i k) in E.
    assert (L i i * T i k = 0) by lra. apply Rmult_integral in H. destruct H; lra.
  Qed.
  Lemma T_diag i : (i < d)%nat -> T i i = L' i i / L i i.
  Proof.
    intros Hid. pose proof (solve_spec d L (fun a => L' a i) L_low L_pos i Hid) as E. cbv beta in E.
    rewrite (sumn_truncate (S i) d) in E; [|lia|].
    2:{ intros a Ha. rewrite (L_low i a) by lia. ring. }
    cbn [sumn] in E. rewrite (sumn_ext i _ (fun _ => 0)) in E.
    2:{ intros a Ha. change (forward_solve d L (fun a => L' a i) a) with (T a i). rewrite T_upper by lia. ring. }
    rewrite sumn_0 in E. fold (T i i) in E. specialize (L_pos i Hid). rewrite <- E. field. lra.
  Qed.
  Lemma z_square_sum i : (i < d)%nat -> sumn N (fun n => r n * z n i ^ 2) = W * (sumn d (fun k => T i k ^ 2) + u i ^ 2).
  Proof.
    intros Hi.
    rewrite (sumn_ext N _ (fun n => (sumn d (fun j => sumn d (fun k => (T i j * T i k) * (r n * (z' n j * z' n k))))) + (sumn d (fun k => 2 * u i * T i k * (r n * z' n k)) + r n * u i ^ 2))).
    2:{ intros n Hn. rewrite z_split by assumption. set (A := sumn d (fun k => T i k * z' n k)).
        rewrite (sumn_ext d (fun k => 2 * u i * T i k * (r n * z' n k)) (fun k => (2 * u i * r n) * (T i k * z' n k))) by (intros; ring).
        rewrite sumn_scal. fold A.
        replace (sumn d (fun j => sumn d (fun k => T i j * T i k * (r n * (z' n j * z' n k))))) with (r n * (A * A)); [ring|].
        unfold A. rewrite sumn_mul, <- sumn_scal. apply sumn_ext. intros j Hj. rewrite <- sumn_scal. apply sumn_ext. intros; ring. }
    rewrite !sumn_plus, sumn_scal_r. fold W.
    rewrite sumn_swap. rewrite (sumn_ext d _ (fun j => W * T i j ^ 2)).
    2:{ intros j Hj. rewrite sumn_swap. rewrite (sumn_ext d _ (fun k => T i j * T i k * V j k)).
        2:{ intros k Hk. rewrite sumn_scal. reflexivity. }
        rewrite (sumn_single d j (fun k => T i j * T i k * V j k)); [|exact Hj|].
        - rewrite V_id, Nat.eqb_refl by assumption. ring.
        - intros k Hk Hne. rewrite V_id by assumption. replace (j =? k)%nat with false by (symmetry; apply Nat.eqb_neq; lia). ring. }
    rewrite sumn_swap. rewrite (sumn_ext d (fun j => sumn N _) (fun _ => 0)).
    2:{ intros k Hk. rewrite sumn_scal, z'_sum by assumption. ring. }
    rewrite sumn_0, sumn_scal. ring.
  Qed.
  Lemma z'_square_sum i : (i < d)%nat -> sumn N (fun n => r n * z' n i ^ 2) = W.
  Proof.
    intros Hi. rewrite (sumn_ext N _ (fun n => r n * (z' n i * z' n i))) by (intros; ring). change (V i i = W).
    now rewrite V_id, Nat.eqb_refl.
  Qed.
  Lemma ln_le_square t : 0 < t -> 2 * ln t <= t ^ 2 - 1.
  Proof.
    intros Ht. replace (2 * ln t) with (ln (t ^ 2)). 2:{ replace (t ^ 2) with (t * t) by ring. rewrite ln_mult by assumption. ring. }
    assert (P : 0 < t ^ 2) by nra. pose proof (exp_ineq1_le (ln (t ^ 2))) as E. rewrite exp_ln in E by exact P. lra.
  Qed.
  Definition log_density (dd : nat) (mean : nat -> R) (C : nat -> nat -> R) (x : nat -> R) : R :=
    - (INR dd * ln (2 * PI) + sumn dd (fun i => forward_solve dd C (fun i => x i - mean i) i ^ 2)) / 2 - sumn dd (fun i => ln (C i i)).
  Theorem weighted_estimate_best :
    sumn N (fun n => r n * log_density d m0 L (X n)) <= sumn N (fun n => r n * log_density d m L' (X n)).
  Proof.
    assert (Dec : forall mu C, sumn N (fun n => r n * log_density d mu C (X n)) =
      - (W * (INR d * ln (2 * PI)) + sumn d (fun i => sumn N (fun n => r n * forward_solve d C (fun i => X n i - mu i) i ^ 2))) / 2 - W * sumn d (fun i => ln (C i i))).
    { intros mu C. rewrite <- sumn_swap.
      rewrite (sumn_ext N (fun j => sumn d _) (fun n => r n * sumn d (fun i => forward_solve d C (fun i => X n i - mu i) i ^ 2))).
      2:{ intros n Hn. now rewrite sumn_scal. }
      unfold log_density.
      rewrite (sumn_ext N _ (fun n => r n * (- (INR d * ln (2 * PI)) / 2 - sumn d (fun i => ln (C i i))) + (- / 2) * (r n * sumn d (fun i => forward_solve d C (fun i => X n i - mu i) i ^ 2)))).
      2:{ intros n Hn. field. }
      rewrite sumn_plus, sumn_scal_r, sumn_scal. fold W. field. }
    rewrite !Dec. clear Dec.
    rewrite (sumn_ext d (fun i => sumn N (fun n => r n * forward_solve d L (fun i0 => X n i0 - m0 i0) i ^ 2)) (fun i => W * (sumn d (fun k => T i k ^ 2) + u i ^ 2))).
    2:{ intros i Hi. now apply z_square_sum. }
    rewrite (sumn_ext d (fun i => sumn N (fun n => r n * forward_solve d L' (fun i0 => X n i0 - m i0) i ^ 2)) (fun i => W)).
    2:{ intros i Hi. now apply z'_square_sum. }
    assert (G : sumn d (fun i => W + 2 * W * (ln (L' i i) - ln (L i i))) <= sumn d (fun i => W * (sumn d (fun k => T i k ^ 2) + u i ^ 2))).
    { apply sumn_le. intros i Hi.
      assert (P : 0 < T i i). { rewrite T_diag by assumption. specialize (L_pos i Hi). specialize (L'_pos i Hi). apply Rdiv_lt_0_compat; assumption. }
      assert (E : ln (T i i) = ln (L' i i) - ln (L i i)).
      { rewrite T_diag by assumption. specialize (L_pos i Hi). specialize (L'_pos i Hi). unfold Rdiv. rewrite ln_mult, ln_Rinv; auto using Rinv_0_lt_compat. }
      rewrite <- E. pose proof (ln_le_square _ P). pose proof (sumn_term_le d (fun k => T i k ^ 2) i (fun k _ => pow2_ge_0 _) Hi) as Q. cbv beta in Q.
      pose proof (pow2_ge_0 (u i)). nra. }
    rewrite sumn_plus, sumn_scal, sumn_minus in G. lra.
  Qed.
End Weighted.
