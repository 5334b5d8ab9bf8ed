(** Facts of the single-precision format, and a rounding that meets [single_precision]. *)
From Coq Require Import Reals ZArith List Lia Lra.
From Verif Require Import Base RBase M_Data M_Logit M_Lik M_Est M_Single.
Import ListNotations.
Import M_Est List.
Local Open Scope R_scope.

Lemma scale_pos : 0 < IZR (2 ^ 149).
Proof. apply IZR_lt. reflexivity. Qed.

(** An integer multiple of 2^(k-149) below 2^(k+24-149) is a number of the format. *)
Lemma single_of (M e : Z) : (Z.abs M <= 2 ^ 24)%Z -> (0 <= e <= 252)%Z -> is_single (IZR (M * 2 ^ e) / IZR (2 ^ 149)).
Proof.
  intros HM He.
  destruct (Z.eq_dec (Z.abs M) (2 ^ 24)) as [E|N].
  - exists (Z.sgn M * 2 ^ 23)%Z, (e + 1)%Z.
    assert (E2 : (M = Z.sgn M * 2 ^ 24)%Z) by (rewrite <- E; symmetry; rewrite Z.mul_comm; apply Z.abs_sgn).
    split; [|split].
    + rewrite Z.abs_mul. destruct (Z.abs_spec (Z.sgn M)), (Z.sgn_spec M); change (2 ^ 24)%Z with 16777216%Z;
      change (Z.abs (2 ^ 23)) with 8388608%Z; lia.
    + lia.
    + rewrite E2 at 1. f_equal. f_equal. rewrite Z.pow_add_r by lia.
      change (2 ^ 24)%Z with (2 ^ 23 * 2)%Z. ring.
  - exists M, e. split; [lia|]. split; [lia|]. reflexivity.
Qed.
Lemma single_int (M : Z) : (Z.abs M <= 2 ^ 24)%Z -> is_single (IZR M).
Proof.
  intros HM. replace (IZR M) with (IZR (M * 2 ^ 149) / IZR (2 ^ 149)).
  - apply single_of; [exact HM|lia].
  - rewrite mult_IZR. field. apply Rgt_not_eq. apply scale_pos.
Qed.
Lemma single_fraction (M : Z) : (Z.abs M <= 2 ^ 24)%Z -> is_single (IZR M / 16777216).
Proof.
  intros HM. replace (IZR M / 16777216) with (IZR (M * 2 ^ 125) / IZR (2 ^ 149)).
  - apply single_of; [exact HM|lia].
  - change (2 ^ 149)%Z with (2 ^ 125 * 16777216)%Z. rewrite !mult_IZR. field.
    apply Rgt_not_eq. apply IZR_lt. reflexivity.
Qed.
Lemma single_next : is_single (1 + / 8388608).
Proof.
  replace (1 + / 8388608) with (IZR (8388609 * 2 ^ 126) / IZR (2 ^ 149)).
  - apply single_of; [change (2 ^ 24)%Z with 16777216%Z; lia|lia].
  - change (2 ^ 149)%Z with (2 ^ 126 * 8388608)%Z. rewrite !mult_IZR. field.
    apply Rgt_not_eq. apply IZR_lt. reflexivity.
Qed.
Lemma single_power (e : Z) : (0 <= e <= 252)%Z -> is_single (IZR (2 ^ e) / IZR (2 ^ 149)).
Proof. intros He. replace (2 ^ e)%Z with (1 * 2 ^ e)%Z by ring. apply single_of; [vm_compute; discriminate|exact He]. Qed.

Lemma in_units (n : Z) (x : R) : x = IZR n / IZR (2 ^ 149) -> x * IZR (2 ^ 149) = IZR n.
Proof. intros ->. field. apply Rgt_not_eq. apply scale_pos. Qed.

(** Nothing strictly between 1 - 2^-24 and 1, nor between 1 and 1 + 2^-23. *)
Lemma below_one x : is_single x -> x < 1 -> x <= 1 - / 16777216.
Proof.
  intros (M & e & HM & He & Ex) Hx. pose proof (in_units _ _ Ex) as U. pose proof scale_pos as Hs.
  assert (L : (M * 2 ^ e < 2 ^ 149)%Z).
  { apply lt_IZR. rewrite <- U. rewrite <- (Rmult_1_l (IZR (2 ^ 149))) at 2. apply Rmult_lt_compat_r; assumption. }
  assert (G : (M * 2 ^ e <= 2 ^ 149 - 2 ^ 125)%Z).
  { destruct (Z_le_gt_dec 125 e) as [H|H].
    - replace e with ((e - 125) + 125)%Z in * by lia. rewrite Z.pow_add_r in * by lia.
      set (n := (2 ^ (e - 125))%Z) in *. change (2 ^ 149)%Z with (2 ^ 24 * 2 ^ 125)%Z in *.
      assert (M * n < 2 ^ 24)%Z.
      { apply Z.mul_lt_mono_pos_r with (p := (2 ^ 125)%Z); [reflexivity|]. lia. }
      replace (2 ^ 24 * 2 ^ 125 - 2 ^ 125)%Z with ((2 ^ 24 - 1) * 2 ^ 125)%Z by ring. rewrite Z.mul_assoc.
      apply Z.mul_le_mono_nonneg_r; [discriminate|lia].
    - assert (2 ^ e <= 2 ^ 124)%Z by (apply Z.pow_le_mono_r; lia).
      assert (0 < 2 ^ e)%Z by (apply Z.pow_pos_nonneg; lia).
      assert (M * 2 ^ e <= 2 ^ 24 * 2 ^ 124)%Z.
      { destruct (Z_le_gt_dec M 0); [|apply Z.mul_le_mono_nonneg; lia].
        assert (M * 2 ^ e <= 0)%Z by (apply Z.mul_nonpos_nonneg; lia).
        assert (0 < 2 ^ 24 * 2 ^ 124)%Z by reflexivity. lia. }
      assert (2 ^ 24 * 2 ^ 124 <= 2 ^ 149 - 2 ^ 125)%Z by (vm_compute; discriminate). lia. }
  apply IZR_le in G. rewrite <- U, minus_IZR in G.
  apply Rmult_le_reg_r with (IZR (2 ^ 149)); [exact Hs|]. apply Rle_trans with (1 := G). apply Req_le.
  change (2 ^ 149)%Z with (2 ^ 125 * 16777216)%Z. rewrite mult_IZR. field.
Qed.
Lemma above_one x : is_single x -> 1 < x -> 1 + / 8388608 <= x.
Proof.
  intros (M & e & HM & He & Ex) Hx. pose proof (in_units _ _ Ex) as U. pose proof scale_pos as Hs.
  assert (L : (2 ^ 149 < M * 2 ^ e)%Z).
  { apply lt_IZR. rewrite <- U. rewrite <- (Rmult_1_l (IZR (2 ^ 149))) at 1. apply Rmult_lt_compat_r; assumption. }
  assert (G : (2 ^ 149 + 2 ^ 126 <= M * 2 ^ e)%Z).
  { destruct (Z_le_gt_dec 126 e) as [H|H].
    - replace e with ((e - 126) + 126)%Z in * by lia. rewrite Z.pow_add_r in * by lia.
      set (n := (2 ^ (e - 126))%Z) in *. change (2 ^ 149)%Z with (2 ^ 23 * 2 ^ 126)%Z in *.
      assert (2 ^ 23 < M * n)%Z.
      { apply Z.mul_lt_mono_pos_r with (p := (2 ^ 126)%Z); [reflexivity|]. lia. }
      replace (2 ^ 23 * 2 ^ 126 + 2 ^ 126)%Z with ((2 ^ 23 + 1) * 2 ^ 126)%Z by ring. rewrite Z.mul_assoc.
      apply Z.mul_le_mono_nonneg_r; [discriminate|lia].
    - exfalso. assert (2 ^ e <= 2 ^ 125)%Z by (apply Z.pow_le_mono_r; lia).
      assert (0 < 2 ^ e)%Z by (apply Z.pow_pos_nonneg; lia).
      assert (M * 2 ^ e <= 2 ^ 24 * 2 ^ 125)%Z.
      { destruct (Z_le_gt_dec M 0); [|apply Z.mul_le_mono_nonneg; lia].
        assert (M * 2 ^ e <= 0)%Z by (apply Z.mul_nonpos_nonneg; lia).
        assert (0 < 2 ^ 24 * 2 ^ 125)%Z by reflexivity. lia. }
      assert (2 ^ 24 * 2 ^ 125 <= 2 ^ 149)%Z by (vm_compute; discriminate). lia. }
  apply IZR_le in G. rewrite <- U, plus_IZR in G.
  apply Rmult_le_reg_r with (IZR (2 ^ 149)); [exact Hs|]. apply Rle_trans with (2 := G). apply Req_le.
  change (2 ^ 149)%Z with (2 ^ 126 * 8388608)%Z. rewrite mult_IZR. field.
Qed.

(** ** Rounding to nearest *)
Lemma nearest_self y x : nearest y x -> is_single x -> y = x.
Proof.
  intros [_ H] Hx. specialize (H x Hx). unfold Rminus in H. rewrite Rplus_opp_r, Rabs_R0 in H.
  pose proof (Rabs_pos (x + - y)). destruct (Req_dec (x + - y) 0) as [E|N]; [lra|]. apply Rabs_no_R0 in N. lra.
Qed.
Lemma nearest_ge y x f : nearest y x -> is_single f -> f <= x -> f <= y.
Proof.
  intros [_ H] Hf L. specialize (H f Hf). destruct (Rle_lt_dec f y) as [G|G]; [exact G|exfalso].
  rewrite (Rabs_pos_eq (x - y)), (Rabs_pos_eq (x - f)) in H by lra. lra.
Qed.
Lemma nearest_le y x f : nearest y x -> is_single f -> x <= f -> y <= f.
Proof.
  intros [_ H] Hf L. specialize (H f Hf). destruct (Rle_lt_dec y f) as [G|G]; [exact G|exfalso].
  rewrite (Rabs_left1 (x - y)), (Rabs_left1 (x - f)) in H by lra. lra.
Qed.
Lemma nearest_double y x : nearest y x -> Rabs y <= 2 * Rabs x.
Proof.
  intros [_ H]. specialize (H 0). rewrite Rminus_0_r in H. specialize (H (single_int 0 ltac:(vm_compute; discriminate))).
  apply Rle_trans with (Rabs x + Rabs (x - y)); [|lra].
  replace y with (x + - (x - y)) at 1 by ring. apply Rle_trans with (1 := Rabs_triang _ _). rewrite Rabs_Ropp. lra.
Qed.
Lemma single_one : is_single 1.
Proof. apply single_int. vm_compute. discriminate. Qed.
Lemma single_zero : is_single 0.
Proof. apply single_int. vm_compute. discriminate. Qed.
(** Everything from just above 1 - 2^-25 to just below 1 + 2^-24 goes to 1. *)
Lemma nearest_one y x : nearest y x -> 1 - / 33554432 < x < 1 + / 16777216 -> y = 1.
Proof.
  intros [S1 H] [L U]. specialize (H 1 single_one).
  destruct (Rtotal_order y 1) as [G|[G|G]]; [exfalso|exact G|exfalso].
  - pose proof (below_one y S1 G). rewrite (Rabs_pos_eq (x - y)) in H by lra.
    unfold Rabs in H. destruct (Rcase_abs (x - 1)); lra.
  - pose proof (above_one y S1 G). rewrite (Rabs_left1 (x - y)) in H by lra.
    unfold Rabs in H. destruct (Rcase_abs (x - 1)); lra.
Qed.

(** ** Rounding exists *)
Fixpoint closest (x d : R) (l : list R) : R :=
  match l with
  | [] => d
  | y :: r => closest x (if Rle_dec (Rabs (x - d)) (Rabs (x - y)) then d else y) r
  end.
Lemma closest_spec x l : forall d,
  (closest x d l = d \/ In (closest x d l) l) /\
  forall z, z = d \/ In z l -> Rabs (x - closest x d l) <= Rabs (x - z).
Proof.
  induction l as [|y r IH]; intros d; cbn.
  - split; [left; reflexivity|]. intros z [-> |[]]. lra.
  - destruct (IH (if Rle_dec (Rabs (x - d)) (Rabs (x - y)) then d else y)) as [M L]. split.
    + destruct M as [E|I]; [|right; right; exact I]. rewrite E. destruct (Rle_dec _ _); [left|right; left]; reflexivity.
    + intros z Hz. destruct (Rle_dec (Rabs (x - d)) (Rabs (x - y))) as [G|G].
      * destruct Hz as [-> |[-> |I]]; [apply L; left; reflexivity| |apply L; right; exact I].
        apply Rle_trans with (2 := G). apply L. left. reflexivity.
      * destruct Hz as [-> |[-> |I]]; [|apply L; left; reflexivity|apply L; right; exact I].
        apply Rle_trans with (Rabs (x - y)); [apply L; left; reflexivity|lra].
Qed.
Definition integers (n : Z) : list Z := map (fun k => (Z.of_nat k - n)%Z) (seq 0 (Z.to_nat (2 * n + 1))).
Lemma integers_in n z : (0 <= n)%Z -> In z (integers n) <-> (Z.abs z <= n)%Z.
Proof.
  intros Hn. unfold integers. rewrite in_map_iff. split.
  - intros (k & <- & Hk). apply in_seq in Hk. lia.
  - intros H. exists (Z.to_nat (z + n)). split; [lia|]. apply in_seq. lia.
Qed.
Definition format (p q : Z) : list R :=
  flat_map (fun M => map (fun e => IZR (M * 2 ^ e) / IZR (2 ^ 149)) (filter (fun e => (0 <=? e)%Z) (integers q)))
           (integers p).
Lemma format_in p q x : (0 <= p)%Z -> (0 <= q)%Z ->
  In x (format p q) <-> exists M e, (Z.abs M <= p)%Z /\ (0 <= e <= q)%Z /\ x = IZR (M * 2 ^ e) / IZR (2 ^ 149).
Proof.
  intros Hp Hq. unfold format. rewrite in_flat_map. split.
  - intros (M & HM & Hx). apply in_map_iff in Hx. destruct Hx as (e & <- & He). apply filter_In in He.
    destruct He as [He1 He2]. apply integers_in in HM; [|exact Hp]. apply integers_in in He1; [|exact Hq].
    apply Z.leb_le in He2. exists M, e. repeat split; try lia.
  - intros (M & e & HM & He & ->). exists M. split; [apply integers_in; assumption|]. apply in_map_iff.
    exists e. split; [reflexivity|]. apply filter_In. split; [apply integers_in; lia|apply Z.leb_le; lia].
Qed.
Lemma closest_nearest x : nearest (closest x 0 (format (2 ^ 24 - 1) 253)) x.
Proof.
  assert (I : forall z, is_single z <-> In z (format (2 ^ 24 - 1) 253)).
  { intros z. rewrite format_in by (vm_compute; discriminate). unfold is_single.
    split; intros (M & e & HM & He & Ex); exists M, e; repeat split; try exact Ex; lia. }
  pose proof (closest_spec x (format (2 ^ 24 - 1) 253) 0) as [M L]. split.
  - destruct M as [-> |H]; [exact single_zero|apply I; exact H].
  - intros z Hz. apply L. right. apply I. exact Hz.
Qed.
(** A rounding with the usual tie at 1 - 2^-25. *)
Definition some_rounding (x : R) : R :=
  if Req_EM_T x (1 - / 33554432) then 1 else closest x 0 (format (2 ^ 24 - 1) 253).
Lemma some_rounding_nearest x : nearest (some_rounding x) x.
Proof.
  unfold some_rounding. destruct (Req_EM_T x (1 - / 33554432)) as [-> |N]; [|apply closest_nearest].
  split; [exact single_one|]. intros z Hz.
  replace (1 - / 33554432 - 1) with (- / 33554432) by ring. rewrite Rabs_Ropp, Rabs_pos_eq by lra.
  destruct (Rlt_le_dec z 1) as [L|L].
  - pose proof (below_one z Hz L). rewrite Rabs_pos_eq by lra. lra.
  - rewrite Rabs_left1 by lra. lra.
Qed.
Definition some_arith : arith := Arith some_rounding exp ln.
Theorem some_single_precision : single_precision some_arith.
Proof.
  constructor; cbn [round expo loga some_arith].
  - intros x _. apply some_rounding_nearest.
  - unfold some_rounding. destruct (Req_EM_T _ _); [reflexivity|congruence].
  - intros x. split; [apply Rlt_le, exp_pos|]. unfold Rminus. rewrite Rplus_opp_r, Rabs_R0.
    pose proof (exp_pos x). pose proof (Rinv_0_lt_compat _ scale_pos). lra.
  - apply exp_0.
  - intros x Hx. rewrite <- exp_0. destruct (Req_dec x 0) as [-> |N]; [lra|]. apply Rlt_le, exp_increasing. lra.
  - intros x _. unfold Rminus. rewrite Rplus_opp_r, Rabs_R0. pose proof (Rabs_pos (ln x)). lra.
Qed.
