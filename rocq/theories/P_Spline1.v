(** Lemmas: one rational-quadratic bin. *)
From Verif Require Import Base BaseFacts RBase RFacts.
Local Open Scope R_scope.

Section Bin.
  Variables s d0 d1 h : R.
  Hypothesis Hs : 0 < s.
  Hypothesis H0 : 0 < d0.
  Hypothesis H1 : 0 < d1.
  Hypothesis Hh : 0 < h.

  Definition bn (t : R) : R := s * t ^ 2 + d0 * (t * (1 - t)).
  Definition bd (t : R) : R := s + (d0 + d1 - 2 * s) * (t * (1 - t)).
  Definition bq (a b : R) : R := s * (a * (1 - b) + b * (1 - a)) + d0 * ((1 - a) * (1 - b)) + d1 * (a * b).
  Definition bphi (t : R) : R := h * bn t / bd t.

  Lemma bd_pos t : 0 <= t <= 1 -> 0 < bd t.
  Proof.
    intros Ht. unfold bd.
    assert (A : 0 <= t * (1 - t)) by (apply Rmult_le_pos; lra).
    assert (B : t * (1 - t) <= / 4).
    { pose proof (Rle_0_sqr (t - / 2)) as Q. unfold Rsqr in Q. lra. }
    assert (C : s * (2 * (t * (1 - t))) <= s * / 2) by (apply Rmult_le_compat_l; lra).
    assert (D : 0 <= (d0 + d1) * (t * (1 - t))) by (apply Rmult_le_pos; lra). lra.
  Qed.
  Lemma bq_pos a b : 0 <= a <= 1 -> 0 <= b <= 1 -> 0 < bq a b.
  Proof.
    intros Ha Hb. unfold bq.
    assert (A1 : 0 <= s * (a * (1 - b) + b * (1 - a))).
    { apply Rmult_le_pos; [lra|]. apply Rplus_le_le_0_compat; apply Rmult_le_pos; lra. }
    assert (A2 : 0 <= (1 - a) * (1 - b)) by (apply Rmult_le_pos; lra).
    assert (A3 : 0 <= a * b) by (apply Rmult_le_pos; lra).
    assert (A2' : 0 <= d0 * ((1 - a) * (1 - b))) by (apply Rmult_le_pos; lra).
    assert (A3' : 0 <= d1 * (a * b)) by (apply Rmult_le_pos; lra).
    destruct (Req_EM_T a 0) as [->|Na].
    - destruct (Req_EM_T b 1) as [->|Nb]; [lra|].
      assert (0 < d0 * ((1 - 0) * (1 - b))) by (apply Rmult_lt_0_compat; [lra|apply Rmult_lt_0_compat; lra]). lra.
    - destruct (Req_EM_T b 0) as [->|Nb].
      + destruct (Req_EM_T a 1) as [->|Na1]; [lra|].
        assert (0 < d0 * ((1 - a) * (1 - 0))) by (apply Rmult_lt_0_compat; [lra|apply Rmult_lt_0_compat; lra]). lra.
      + assert (0 < d1 * (a * b)) by (apply Rmult_lt_0_compat; [lra|apply Rmult_lt_0_compat; lra]). lra.
  Qed.
  Lemma bphi_diff a b : bd a <> 0 -> bd b <> 0 -> bphi b - bphi a = (b - a) * (h * s * bq a b / (bd a * bd b)).
  Proof. intros Ha Hb. unfold bphi. unfold bn, bq. field_simplify_eq; [|auto]. unfold bd. ring. Qed.
  Lemma bphi_incr a b : 0 <= a -> a < b -> b <= 1 -> bphi a < bphi b.
  Proof.
    intros Ha Hab Hb. pose proof (bd_pos a ltac:(lra)) as Da. pose proof (bd_pos b ltac:(lra)) as Db.
    pose proof (bq_pos a b ltac:(lra) ltac:(lra)) as Q.
    assert (E : bphi b - bphi a = (b - a) * (h * s * bq a b / (bd a * bd b))) by (apply bphi_diff; lra).
    assert (0 < (b - a) * (h * s * bq a b / (bd a * bd b))).
    { apply Rmult_lt_0_compat; [lra|]. apply Rdiv_lt_0_compat; repeat apply Rmult_lt_0_compat; assumption. }
    lra.
  Qed.
  Lemma bphi_0 : bphi 0 = 0.
  Proof. unfold bphi, bn, bd. field. lra. Qed.
  Lemma bphi_1 : bphi 1 = h.
  Proof. unfold bphi, bn, bd. field. lra. Qed.
  Lemma bd_cont t : continuity_pt bd t.
  Proof. unfold bd. apply derivable_continuous_pt. reg. Qed.
  Lemma bphi_deriv t : 0 <= t <= 1 -> derivable_pt_lim bphi t (h * s * bq t t / (bd t * bd t)).
  Proof.
    intros Ht. pose proof (bd_pos t Ht) as Dt.
    assert (DN : derivable_pt_lim (fun u => h * bn u) t (h * (2 * s * t + d0 * (1 - 2 * t)))).
    { unfold bn. replace (h * (2 * s * t + d0 * (1 - 2 * t))) with (h * (s * (2 * t) + (d0 * (1 * (1 - t) + t * (0 - 1))))) by ring.
      apply (derivable_pt_lim_scal (fun u => s * u ^ 2 + d0 * (u * (1 - u)))).
      apply (derivable_pt_lim_plus (fun u => s * u ^ 2) (fun u => d0 * (u * (1 - u)))).
      - apply (derivable_pt_lim_scal (fun u => u ^ 2)). replace (2 * t) with (INR 2 * t ^ pred 2) by (cbn; ring). apply derivable_pt_lim_pow.
      - apply (derivable_pt_lim_scal (fun u => u * (1 - u))). apply (derivable_pt_lim_mult (fun u => u) (fun u => 1 - u)).
        + apply derivable_pt_lim_id.
        + apply (derivable_pt_lim_minus (fun _ => 1) (fun u => u)); [apply derivable_pt_lim_const|apply derivable_pt_lim_id]. }
    assert (DD : derivable_pt_lim bd t ((d0 + d1 - 2 * s) * (1 - 2 * t))).
    { unfold bd. replace ((d0 + d1 - 2 * s) * (1 - 2 * t)) with (0 + (d0 + d1 - 2 * s) * (1 * (1 - t) + t * (0 - 1))) by ring.
      apply (derivable_pt_lim_plus (fun _ => s) (fun u => (d0 + d1 - 2 * s) * (u * (1 - u)))); [apply derivable_pt_lim_const|].
      apply (derivable_pt_lim_scal (fun u => u * (1 - u))). apply (derivable_pt_lim_mult (fun u => u) (fun u => 1 - u)).
      - apply derivable_pt_lim_id.
      - apply (derivable_pt_lim_minus (fun _ => 1) (fun u => u)); [apply derivable_pt_lim_const|apply derivable_pt_lim_id]. }
    assert (E : h * s * bq t t / (bd t * bd t) =
      (h * (2 * s * t + d0 * (1 - 2 * t)) * bd t - (d0 + d1 - 2 * s) * (1 - 2 * t) * (h * bn t)) / (bd t)²).
    { unfold Rsqr, bq, bn. field_simplify_eq; [|lra]. unfold bd. ring. }
    rewrite E. apply (derivable_pt_lim_div (fun u => h * bn u) bd); [exact DN|exact DD|lra].
  Qed.
  (** The quadratic solved by the inverse. *)
  Lemma root_eq t : 0 <= t <= 1 ->
    let u := bphi t in
    let a := u * (d0 + d1 - 2 * s) + h * (s - d0) in
    let b := h * d0 - u * (d0 + d1 - 2 * s) in
    let c := - s * u in
    2 * c / (- b - sqrt (b ^ 2 - 4 * a * c)) = t.
  Proof.
    intros Ht u a b c. pose proof (bd_pos t Ht) as Dt. pose proof (bq_pos t t Ht Ht) as Qt.
    assert (Q : a * t ^ 2 + b * t + c = 0).
    { unfold a, b, c, u, bphi. field_simplify_eq; [|lra]. unfold bn, bd. ring. }
    assert (P : 2 * a * t + b = h * s * bq t t / bd t).
    { unfold a, b, u, bphi. field_simplify_eq; [|lra]. unfold bn, bd, bq. ring. }
    assert (Ppos : 0 < 2 * a * t + b).
    { rewrite P. apply Rdiv_lt_0_compat; repeat apply Rmult_lt_0_compat; assumption. }
    assert (D : b ^ 2 - 4 * a * c = (2 * a * t + b) * (2 * a * t + b)).
    { replace c with (- (a * t ^ 2 + b * t)) by lra. ring. }
    rewrite D, sqrt_square by lra.
    destruct (Req_EM_T t 0) as [E0|Hn].
    - assert (U : u = 0) by (unfold u; rewrite E0; apply bphi_0).
      assert (C0 : c = 0) by (unfold c; rewrite U; ring). rewrite C0, E0. unfold Rdiv. ring.
    - assert (tp : 0 < t) by lra.
      assert (Up : 0 < u).
      { unfold u. rewrite <- bphi_0. apply bphi_incr; lra. }
      assert (Bp : 0 < b + a * t).
      { assert (E : (b + a * t) * t = s * u) by (unfold c in Q; lra).
        assert (0 < (b + a * t) * t) by (rewrite E; apply Rmult_lt_0_compat; assumption).
        destruct (Rle_lt_dec (b + a * t) 0) as [Hle|]; [|assumption]. exfalso.
        assert ((b + a * t) * t <= 0 * t) by (apply Rmult_le_compat_r; lra). lra. }
      replace c with (- (a * t ^ 2 + b * t)) by lra. field_simplify_eq; [ring|lra].
  Qed.
End Bin.
