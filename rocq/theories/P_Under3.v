(** A long test: pairs of items of equal difficulty answered once right and once wrong. *)
From Coq Require Import Lia Lra.
From Verif Require Import Base BaseFacts RBase RFacts M_Data M_CV M_Logit M_Lik S_Lik M_Est S_Est P_Est1 P_Est2 P_Opt3 M_Under
  P_Single2 P_Single3 P_Under1 P_Under2.
Local Open Scope R_scope.
Import M_Est List.

Definition pairs_test (bs : list R) : opl := {| opl_items := 2 * length bs; opl_b := flat_map (fun b => [b; b]) bs |}.
Definition pairs_row (k : nat) : list cell := concat (repeat [Some 1; Some 0]%Z k).
Lemma pairs_length (bs : list R) : length (flat_map (fun b => [b; b]) bs) = (2 * length bs)%nat.
Proof. induction bs as [|b bs IH]; [reflexivity|]. cbn [flat_map app length]. rewrite IH. lia. Qed.
Lemma pairs_row_length k : length (pairs_row k) = (2 * k)%nat.
Proof. unfold pairs_row. induction k as [|k IH]; [reflexivity|]. cbn [repeat concat app length]. rewrite IH. lia. Qed.
Lemma pairs_library bs : bs <> [] -> library_model (of_sub (opl_sub (-9) (pairs_test bs))) (opl_p (pairs_test bs)).
Proof.
  intros H. apply lib_opl; cbn; [apply pairs_length|]. destruct bs; [congruence|cbn; lia].
Qed.
Lemma pairs_cells k : forall c, In c (pairs_row k) -> c = Some 1%Z \/ c = Some 0%Z.
Proof.
  unfold pairs_row. induction k as [|k IH]; intros c H; [destruct H|]. cbn in H. destruct H as [<-|[<-|H]]; auto.
Qed.
Lemma pairs_legal bs : legal_row (em_cats (of_sub (opl_sub (-9) (pairs_test bs)))) (pairs_row (length bs)).
Proof.
  assert (E : em_cats (of_sub (opl_sub (-9) (pairs_test bs))) = repeat 2%nat (2 * length bs)) by reflexivity. rewrite E. split.
  - rewrite pairs_row_length, repeat_length. reflexivity.
  - intros i c H. assert (Hi : (i < 2 * length bs)%nat).
    { rewrite <- (pairs_row_length (length bs)). apply nth_error_Some. congruence. }
    assert (R2 : nth i (repeat 2%nat (2 * length bs)) O = 2%nat).
    { apply nth_error_nth. apply nth_error_repeat. exact Hi. }
    right. right. rewrite R2. destruct (pairs_cells _ c (nth_error_In _ _ H)) as [-> | ->]; [exists 1%nat|exists 0%nat]; split; try reflexivity; lia.
Qed.
Lemma quarter x : 0 < logistic x * (1 - logistic x) <= / 4.
Proof.
  pose proof (logistic_bounds x). split; [apply Rmult_lt_0_compat; lra|].
  assert (0 <= (logistic x - 1 / 2) ^ 2) by apply pow2_ge_0. lra.
Qed.
Lemma pairs_likelihood bs t : 0 < likelihood (opl_p (pairs_test bs)) [t] (pairs_row (length bs)) <= (/ 4) ^ length bs.
Proof.
  unfold likelihood, opl_p. cbn [nth opl_b pairs_test].
  induction bs as [|b bs IH]; [unfold pairs_row; cbn; lra|].
  cbn [length]. change (pairs_row (S (length bs))) with (Some 1%Z :: Some 0%Z :: pairs_row (length bs)).
  rewrite !mapi_cons. cbn [flat_map app nth rprod pow]. cbn [answer Z.eqb Z.to_nat].
  change (Pos.to_nat 1) with 1%nat. cbn [Nat.eqb].
  pose proof (quarter (t + b)) as Q. rewrite <- Rmult_assoc. split.
  - apply Rmult_lt_0_compat; [apply Q|apply IH].
  - apply Rmult_le_compat; [apply Rlt_le, Q|apply Rlt_le, IH|apply Q|apply IH].
Qed.
Lemma pairs_small bs t : (600 <= length bs)%nat -> ln (likelihood (opl_p (pairs_test bs)) [t] (pairs_row (length bs))) <= -746.
Proof.
  intros Hk. destruct (pairs_likelihood bs t) as [P L]. set (v := likelihood _ _ _) in *.
  assert (B : v <= exp (-746)).
  { apply Rle_trans with (1 := L). apply Rle_trans with ((/ 4) ^ 600).
    - replace (length bs) with (600 + (length bs - 600))%nat by lia. rewrite pow_add.
      rewrite <- (Rmult_1_r ((/ 4) ^ 600)) at 2. apply Rmult_le_compat_l; [apply pow_le; lra|].
      rewrite <- (pow1 (length bs - 600)). apply pow_incr. lra.
    - rewrite pow_inv. replace (-746) with (Ropp 746) by lra. rewrite exp_Ropp.
      apply Rinv_le_contravar; [apply exp_pos|].
      replace 746 with (INR 746) by (rewrite INR_IZR_INZ; reflexivity). apply Rle_trans with (1 := exp_power 746).
      rewrite (pow_IZR 3 746), (pow_IZR 4 600). apply IZR_le. vm_compute. discriminate. }
  rewrite <- (ln_exp (-746)). destruct B as [B|B]; [apply Rlt_le, ln_increasing; assumption|rewrite B; lra].
Qed.
(** An exponential that underflows as in double precision. *)
Definition some_double (x : R) : R := if Rle_dec x (-746) then 0 else exp x.
Lemma some_double_ok : double_exponential some_double.
Proof.
  assert (U : 0 < / IZR (2 ^ 1074)) by (apply Rinv_0_lt_compat, IZR_lt; reflexivity).
  assert (D : 0 < / IZR (2 ^ 52)) by (apply Rinv_0_lt_compat, IZR_lt; reflexivity).
  split; [split|]; unfold some_double.
  - destruct (Rle_dec 0 (-746)); [lra|apply exp_0].
  - intros x _. pose proof (exp_pos x) as P. pose proof (Rmult_lt_0_compat _ _ D P) as P2. destruct (Rle_dec x (-746)) as [L|L].
    + split; [lra|]. rewrite Rabs_minus_sym, Rminus_0_r, Rabs_pos_eq by lra.
      assert (exp x <= / IZR (2 ^ 1074)); [|lra].
      apply Rle_trans with (exp (Ropp 746)); [apply exp_le; lra|]. rewrite exp_Ropp.
      apply Rinv_le_contravar; [apply IZR_lt; reflexivity|exact exp_746].
    + split; [lra|]. unfold Rminus. rewrite Rplus_opp_r, Rabs_R0. lra.
  - intros x H. destruct (Rle_dec x (-746)); [reflexivity|contradiction].
Qed.
