(** Single-precision sigmoids, the graded response and the three-parameter model. *)
From Coq Require Import Reals ZArith List Lia Lra.
From Verif Require Import Base BaseFacts RBase M_Data M_Logit M_Lik M_Est M_Single P_Single1.
Import ListNotations.
Import M_Est List.
Local Open Scope R_scope.

Lemma top_large : 170141183460469231731687303715884105728 < top.
Proof. unfold top. apply IZR_lt. reflexivity. Qed.
Lemma tiny : / IZR (2 ^ 149) < / 100000000000000.
Proof. apply Rinv_lt_contravar; [apply Rmult_lt_0_compat; [lra|apply scale_pos]|]. apply IZR_lt. reflexivity. Qed.
Lemma tiny_pos : 0 < / IZR (2 ^ 149).
Proof. apply Rinv_0_lt_compat, scale_pos. Qed.

Lemma abs_between x y : Rabs x <= y -> - y <= x <= y.
Proof. intros H. unfold Rabs in H. destruct (Rcase_abs x); lra. Qed.
Lemma exp_18 : 20000000 <= exp 18.
Proof.
  assert (E : 9 / 8 <= exp (1 / 8)) by (pose proof (exp_ineq1 (1 / 8) ltac:(apply Rgt_not_eq; lra)); lra).
  assert (Sq : forall a x, 0 <= a -> a <= exp x -> a * a <= exp (x + x)).
  { intros a x Ha H. rewrite exp_plus. apply Rmult_le_compat; lra. }
  assert (E1 : 81 / 64 <= exp (1 / 4)) by (replace (1 / 4) with (1 / 8 + 1 / 8) by lra; apply Rle_trans with (2 := Sq (9 / 8) _ ltac:(lra) E); lra).
  assert (E2' : 6561 / 4096 <= exp (1 / 2)) by (replace (1 / 2) with (1 / 4 + 1 / 4) by lra; apply Rle_trans with (2 := Sq (81 / 64) _ ltac:(lra) E1); lra).
  assert (E3 : 256 / 100 <= exp 1) by (replace (exp 1) with (exp (1 / 2 + 1 / 2)) by (f_equal; lra); apply Rle_trans with (2 := Sq (6561 / 4096) _ ltac:(lra) E2'); lra).
  assert (E4 : 655 / 100 <= exp 2) by (replace 2 with (1 + 1) by lra; apply Rle_trans with (2 := Sq (256 / 100) _ ltac:(lra) E3); lra).
  assert (E5 : 429 / 10 <= exp 4) by (replace 4 with (2 + 2) by lra; apply Rle_trans with (2 := Sq (655 / 100) _ ltac:(lra) E4); lra).
  assert (E6 : 1840 <= exp 8) by (replace 8 with (4 + 4) by lra; apply Rle_trans with (2 := Sq (429 / 10) _ ltac:(lra) E5); lra).
  assert (E7 : 3385600 <= exp 16) by (replace 16 with (8 + 8) by lra; apply Rle_trans with (2 := Sq (1840) _ ltac:(lra) E6); lra).
  replace 18 with (16 + 2) by lra. rewrite exp_plus.
  apply Rle_trans with (3385600 * (655 / 100)); [lra|]. apply Rmult_le_compat; lra.
Qed.
Lemma exp_power n : exp (INR n) <= 3 ^ n.
Proof.
  induction n as [|n IH]; [cbn; rewrite exp_0; lra|]. rewrite S_INR, exp_plus. cbn [pow]. rewrite Rmult_comm.
  apply Rmult_le_compat; [apply Rlt_le, exp_pos|apply Rlt_le, exp_pos|exact exp_le_3|exact IH].
Qed.
Lemma exp_le x y : x <= y -> exp x <= exp y.
Proof. intros [H| ->]; [apply Rlt_le, exp_increasing, H|lra]. Qed.

Section Single.
Variable A : arith.
Hypothesis SPA : single_precision A.

Lemma round_fin x : Rabs x < top -> fround A (Some (Fin x)) = Some (Fin (round A x)).
Proof using Type. intros H. unfold fround. destruct (Rlt_dec (Rabs x) top); [reflexivity|contradiction]. Qed.
Lemma small_top x y : Rabs x <= y -> y <= 170141183460469231731687303715884105728 -> Rabs x < top.
Proof using Type. clear. intros H1 H2. pose proof top_large. lra. Qed.
Lemma round_exact x : is_single x -> Rabs x < top -> round A x = x.
Proof using SPA. intros H T. apply nearest_self; [apply (sp_nearest A SPA); exact T|exact H]. Qed.

(** The exponential of -18 or less is lost when added to 1. *)
Lemma exp_lost z : 18 <= z -> 0 <= expo A (- z) < / 16777216.
Proof using SPA.
  intros Hz. destruct (sp_exp A SPA (- z)) as [P E]. split; [exact P|].
  assert (L : exp (- z) <= / 20000000).
  { apply Rle_trans with (exp (Ropp 18)); [apply exp_le; lra|]. rewrite exp_Ropp.
    apply Rinv_le_contravar; [lra|exact exp_18]. }
  pose proof tiny. pose proof (Rle_abs (expo A (- z) - exp (- z))). lra.
Qed.
Lemma exp_fin z : 0 <= z -> exp32 A (Some (Fin (- z))) = Some (Fin (expo A (- z))).
Proof using SPA.
  intros Hz. unfold exp32. pose proof (sp_exp_one A SPA (- z) ltac:(lra)). pose proof top_large.
  destruct (Rlt_dec (expo A (- z)) top); [reflexivity|lra].
Qed.
Lemma div_one x : x <> 0 -> fdiv one32 (Some (Fin x)) = Some (Fin (1 / x)).
Proof using Type. intros H. unfold fdiv, one32. destruct (Req_EM_T x 0); [contradiction|reflexivity]. Qed.
(** The sigmoid is exactly 1 from 18 on. *)
Lemma sigmoid_one z : 18 <= z -> sigmoid32 A (Some (Fin z)) = Some (Fin 1).
Proof using SPA.
  intros Hz. unfold sigmoid32, add32, div32. cbn [fneg]. rewrite exp_fin by lra. unfold one32 at 2. cbn [fadd].
  pose proof (exp_lost z Hz) as B.
  assert (T : Rabs (1 + expo A (- z)) < top) by (apply small_top with 2; [rewrite Rabs_pos_eq|]; lra).
  rewrite round_fin by exact T.
  rewrite (nearest_one (round A (1 + expo A (- z))) (1 + expo A (- z))); [|apply (sp_nearest A SPA); exact T|lra].
  rewrite div_one by lra. replace (1 / 1) with 1 by field.
  assert (T1 : Rabs 1 < top) by (apply small_top with 1; [rewrite Rabs_pos_eq|]; lra).
  rewrite round_fin by exact T1. f_equal. f_equal. apply round_exact; [exact single_one|exact T1].
Qed.
Lemma sigmoid_pinf : sigmoid32 A (Some PInf) = Some (Fin 1).
Proof using SPA.
  unfold sigmoid32, add32, div32. cbn [fneg exp32 fadd one32].
  assert (T1 : Rabs 1 < top) by (apply small_top with 1; [rewrite Rabs_pos_eq|]; lra).
  rewrite Rplus_0_r, round_fin by exact T1. rewrite (round_exact 1 single_one T1). rewrite (div_one 1 R1_neq_R0).
  replace (1 / 1) with 1 by field. rewrite round_fin by exact T1. now rewrite (round_exact 1 single_one T1).
Qed.
Lemma sigmoid_ninf : sigmoid32 A (Some NInf) = Some (Fin 0).
Proof using SPA.
  unfold sigmoid32, add32, div32. cbn [fneg exp32 fadd one32].
  change (fround A (Some PInf)) with (Some PInf : fl). unfold one32; cbn [fdiv].
  assert (T : Rabs 0 < top) by (apply small_top with 1; [rewrite Rabs_pos_eq|]; lra).
  rewrite round_fin by exact T. now rewrite (round_exact 0 single_zero T).
Qed.
(** The sum of a score and a threshold of 18 or more stays 18 or more (or overflows). *)
Lemma add_large w b : 18 <= w + b ->
  add32 A (Some (Fin w)) (Some (Fin b)) = Some PInf \/
  exists z, 18 <= z /\ add32 A (Some (Fin w)) (Some (Fin b)) = Some (Fin z).
Proof using SPA.
  intros H. unfold add32. cbn [fadd]. destruct (Rlt_dec (Rabs (w + b)) top) as [T|T].
  - right. exists (round A (w + b)). split; [|apply round_fin; exact T].
    apply nearest_ge with (w + b); [apply (sp_nearest A SPA); exact T|apply single_int; vm_compute; discriminate|exact H].
  - left. unfold fround. destruct (Rlt_dec (Rabs (w + b)) top); [contradiction|]. unfold fpos.
    destruct (Rlt_dec 0 (w + b)); [reflexivity|lra].
Qed.
Lemma sigmoid_large w b : 18 <= w + b -> sigmoid32 A (add32 A (Some (Fin w)) (Some (Fin b))) = Some (Fin 1).
Proof using SPA.
  intros H. destruct (add_large w b H) as [-> |(z & Hz & ->)]; [exact sigmoid_pinf|apply sigmoid_one; exact Hz].
Qed.
Lemma sub_equal x : sub32 A (Some (Fin x)) (Some (Fin x)) = Some (Fin 0).
Proof using SPA.
  unfold sub32, fsub. cbn [fneg fadd]. rewrite Rplus_opp_r.
  assert (T : Rabs 0 < top) by (apply small_top with 1; [rewrite Rabs_pos_eq|]; lra).
  rewrite round_fin by exact T. now rewrite (round_exact 0 single_zero T).
Qed.
Lemma log_zero : log32 A (Some (Fin 0)) = Some NInf.
Proof using Type. unfold log32. destruct (Rlt_dec 0 0); [lra|]. destruct (Req_EM_T 0 0); [reflexivity|congruence]. Qed.

(** ** Graded response *)
Lemma grm_diff_cons a b r : grm_diff32 A (a :: b :: r) = sub32 A a b :: grm_diff32 A (b :: r).
Proof using Type. clear. unfold grm_diff32. cbn. rewrite Nat.sub_0_r. reflexivity. Qed.
Lemma grm_diff_nth geq : forall k, (S k < length geq)%nat ->
  nth k (grm_diff32 A geq) None = sub32 A (nth k geq None) (nth (S k) geq None).
Proof using Type.
  clear. induction geq as [|a [|b r] IH]; intros k H; [cbn in H; lia|cbn in H; lia|].
  rewrite grm_diff_cons. destruct k as [|k]; [reflexivity|]. cbn [nth]. rewrite IH by (cbn in H |- *; lia). reflexivity.
Qed.
Lemma grm_diff_last geq : forall k, S k = length geq -> nth k (grm_diff32 A geq) None = nth k geq None.
Proof using Type.
  clear. induction geq as [|a [|b r] IH]; intros k H; [discriminate| |].
  - cbn in H. replace k with O by lia. reflexivity.
  - rewrite grm_diff_cons. destruct k as [|k]; [cbn in H; lia|]. cbn [nth]. apply IH. cbn in H |- *. lia.
Qed.
Lemma grm_geq_nth M K w b k : (k < M)%nat ->
  nth k (map (sigmoid32 A) (grm_output32 A M K w b)) None =
  sigmoid32 A (if (k =? 0)%nat then Some PInf
               else if (k <? K)%nat then add32 A (Some (Fin w)) (Some (Fin (nth (k - 1) b 0))) else Some NInf).
Proof using Type.
  clear. intros H. unfold grm_output32. rewrite map_map.
  rewrite nth_indep with (d' := sigmoid32 A (if (0 =? 0)%nat then Some PInf
               else if (0 <? K)%nat then add32 A (Some (Fin w)) (Some (Fin (nth (0 - 1) b 0))) else Some NInf))
    by (rewrite map_length, seq_length; exact H).
  rewrite (map_nth (fun x => sigmoid32 A (if (x =? 0)%nat then Some PInf
               else if (x <? K)%nat then add32 A (Some (Fin w)) (Some (Fin (nth (x - 1) b 0))) else Some NInf)) (seq 0 M) O k).
  rewrite seq_nth by exact H. reflexivity.
Qed.
(** A category whose own and next curve are both at 18 or more has probability exactly 0. *)
Lemma grm_lost M K w b k : (S k < K)%nat -> (K <= M)%nat ->
  (k = 0%nat \/ 18 <= w + nth (k - 1) b 0) -> 18 <= w + nth k b 0 ->
  nth k (grm_item32 A M K w b) None = Some (Fin 0).
Proof using SPA.
  intros HK HM H1 H2. unfold grm_item32.
  rewrite grm_diff_nth by (unfold grm_output32; rewrite !map_length, seq_length; lia).
  rewrite !grm_geq_nth by lia. cbn [Nat.eqb]. rewrite (proj2 (Nat.ltb_lt (S k) K) HK).
  replace (S k - 1)%nat with k by lia. rewrite (sigmoid_large _ _ H2).
  destruct (Nat.eqb_spec k 0) as [E|N].
  - rewrite sigmoid_pinf. apply sub_equal.
  - rewrite (proj2 (Nat.ltb_lt k K)) by lia. destruct H1 as [H1|H1]; [contradiction|].
    rewrite (sigmoid_large _ _ H1). apply sub_equal.
Qed.

(** ** Where the sigmoid is inside (0, 1) *)
Lemma sigmoid_inside z : -80 <= z <= 14 ->
  exists s, sigmoid32 A (Some (Fin z)) = Some (Fin s) /\ is_single s /\ 0 < s <= 1 - / 16777216.
Proof using SPA.
  intros Hz. destruct (sp_exp A SPA (- z)) as [P E]. pose proof tiny as T0.
  assert (U : exp (- z) <= 147808829414345923316083210206383297601).
  { apply Rle_trans with (exp (INR 80)); [apply exp_le; cbn; lra|].
    apply Rle_trans with (1 := exp_power 80). cbn. lra. }
  assert (L : / 4782969 <= exp (- z)).
  { replace z with (- - z) in Hz by ring. apply Rle_trans with (exp (Ropp 14)); [|apply exp_le; lra].
    rewrite exp_Ropp. apply Rinv_le_contravar; [apply exp_pos|].
    replace 14 with (INR 14) by (cbn; lra). apply Rle_trans with (1 := exp_power 14). cbn. lra. }
  assert (B : / 8388608 <= expo A (- z) <= 147808900000000000000000000000000000000).
  { apply abs_between in E. lra. }
  unfold sigmoid32, add32, div32, exp32. cbn [fneg]. pose proof top_large as TL.
  destruct (Rlt_dec (expo A (- z)) top) as [_|N]; [|lra]. unfold one32 at 2. cbn [fadd].
  assert (T : Rabs (1 + expo A (- z)) < top) by (rewrite Rabs_pos_eq; lra).
  rewrite round_fin by exact T. set (q := round A (1 + expo A (- z))).
  pose proof (sp_nearest A SPA _ T) as Nq. fold q in Nq.
  assert (Q1 : 1 + / 8388608 <= q) by (apply (nearest_ge _ _ _ Nq single_next); lra).
  assert (Q2 : q <= 170141183460469231731687303715884105728).
  { apply (nearest_le _ _ _ Nq); [|lra].
    replace 170141183460469231731687303715884105728 with (IZR (2 ^ 276) / IZR (2 ^ 149)).
    - replace (2 ^ 276)%Z with (16777216 * 2 ^ 252)%Z by reflexivity. apply single_of; [vm_compute; discriminate|lia].
    - change (2 ^ 276)%Z with (170141183460469231731687303715884105728 * 2 ^ 149)%Z. rewrite mult_IZR. field.
      apply Rgt_not_eq, scale_pos. }
  rewrite div_one by lra.
  assert (I1 : / 170141183460469231731687303715884105728 <= 1 / q).
  { unfold Rdiv. rewrite Rmult_1_l. apply Rinv_le_contravar; lra. }
  assert (I2 : 1 / q <= 1 - / 16777216).
  { unfold Rdiv. rewrite Rmult_1_l. apply Rle_trans with (/ (1 + / 8388608)); [apply Rinv_le_contravar; lra|].
    apply Rmult_le_reg_r with (1 + / 8388608); [lra|]. rewrite Rinv_l by lra. lra. }
  assert (P0 : 0 < / 170141183460469231731687303715884105728) by (apply Rinv_0_lt_compat; lra).
  assert (T2 : Rabs (1 / q) < top) by (apply small_top with 1; [rewrite Rabs_pos_eq|]; lra).
  rewrite round_fin by exact T2. exists (round A (1 / q)). split; [reflexivity|].
  pose proof (sp_nearest A SPA _ T2) as N2. split; [exact (proj1 N2)|]. split.
  - apply Rlt_le_trans with (1 := P0). apply (nearest_ge _ _ _ N2); [|exact I1].
    replace (/ 170141183460469231731687303715884105728) with (IZR (2 ^ 22) / IZR (2 ^ 149)).
    + apply single_power. lia.
    + change (2 ^ 149)%Z with (2 ^ 22 * 170141183460469231731687303715884105728)%Z. rewrite mult_IZR. field.
      apply Rgt_not_eq. apply IZR_lt. reflexivity.
  - apply (nearest_le _ _ _ N2); [|exact I2].
    replace (1 - / 16777216) with (IZR 16777215 / 16777216) by lra. apply single_fraction. vm_compute. discriminate.
Qed.
Lemma one_minus s : 0 < s <= 1 - / 16777216 -> exists v, sub32 A one32 (Some (Fin s)) = Some (Fin v) /\ 0 < v <= 1.
Proof using SPA.
  intros H. unfold sub32, fsub, one32. cbn [fneg fadd].
  assert (T : Rabs (1 + - s) < top) by (apply small_top with 1; [rewrite Rabs_pos_eq|]; lra).
  rewrite round_fin by exact T. exists (round A (1 + - s)). split; [reflexivity|].
  pose proof (sp_nearest A SPA _ T) as N. split.
  - apply Rlt_le_trans with (/ 16777216); [lra|]. apply (nearest_ge _ _ _ N); [|lra].
    replace (/ 16777216) with (IZR 1 / 16777216) by lra. apply single_fraction. vm_compute. discriminate.
  - apply (nearest_le _ _ _ N single_one). lra.
Qed.
Lemma log_fin x : 0 < x <= 1 -> exists v, log32 A (Some (Fin x)) = Some (Fin v) /\ v <= 0.
Proof using SPA.
  intros H. unfold log32. destruct (Rlt_dec 0 x); [|lra]. exists (loga A x). split; [reflexivity|].
  pose proof (sp_log A SPA x (proj1 H)) as E.
  assert (L : ln x <= 0) by (rewrite <- ln_1; destruct (proj2 H) as [G| ->]; [apply Rlt_le, ln_increasing; lra|lra]).
  rewrite (Rabs_left1 (ln x)) in E by exact L. apply abs_between in E. lra.
Qed.
Lemma grm_binary M w b z : (2 <= M)%nat -> add32 A (Some (Fin w)) (Some (Fin b)) = Some (Fin z) -> -80 <= z <= 14 ->
  (exists p, nth 0 (grm_item32 A M 2 w [b]) None = Some (Fin p) /\ 0 < p <= 1) /\
  (exists p, nth 1 (grm_item32 A M 2 w [b]) None = Some (Fin p) /\ 0 < p <= 1).
Proof using SPA.
  intros HM E Hz. destruct (sigmoid_inside z Hz) as (s & Es & Ss & Hs). unfold grm_item32. split.
  - rewrite grm_diff_nth by (unfold grm_output32; rewrite !map_length, seq_length; lia).
    rewrite !grm_geq_nth by lia. cbn [Nat.eqb Nat.ltb Nat.leb Nat.sub nth]. rewrite E, Es, sigmoid_pinf. fold one32.
    apply one_minus. exact Hs.
  - destruct (Nat.eq_dec M 2) as [-> |N].
    + rewrite grm_diff_last by reflexivity. rewrite grm_geq_nth by lia. cbn [Nat.eqb Nat.ltb Nat.leb Nat.sub nth].
      rewrite E, Es. exists s. split; [reflexivity|lra].
    + rewrite grm_diff_nth by (unfold grm_output32; rewrite !map_length, seq_length; lia).
      rewrite !grm_geq_nth by lia. cbn [Nat.eqb Nat.ltb Nat.leb Nat.sub nth]. rewrite E, Es.
      rewrite sigmoid_ninf. unfold sub32, fsub. cbn [fneg fadd].
      assert (T : Rabs (s + - 0) < top) by (apply small_top with 1; [rewrite Rabs_pos_eq|]; lra).
      rewrite round_fin by exact T. rewrite Ropp_0, Rplus_0_r in T |- *. exists s. split; [|lra].
      now rewrite (round_exact s Ss T).
Qed.

(** ** Three-parameter model *)
Lemma sigmoid_range z : exists s, sigmoid32 A (Some (Fin z)) = Some (Fin s) /\ 0 <= s <= 1.
Proof using SPA.
  unfold sigmoid32, add32, div32, exp32. cbn [fneg]. destruct (sp_exp A SPA (- z)) as [P _].
  pose proof top_large as TL.
  assert (Z : fround A (Some (Fin 0)) = Some (Fin 0)).
  { assert (T : Rabs 0 < top) by (apply small_top with 1; [rewrite Rabs_pos_eq|]; lra).
    rewrite round_fin by exact T. now rewrite (round_exact 0 single_zero T). }
  destruct (Rlt_dec (expo A (- z)) top) as [L|L]; unfold one32 at 2; cbn [fadd fround].
  - destruct (Rlt_dec (Rabs (1 + expo A (- z))) top) as [T|T].
    + assert (Q : 1 <= round A (1 + expo A (- z))) by (apply (nearest_ge _ _ _ (sp_nearest A SPA _ T) single_one); lra).
      set (q := round A (1 + expo A (- z))) in *. rewrite div_one by lra.
      assert (B : 0 <= 1 / q <= 1).
      { unfold Rdiv. rewrite Rmult_1_l. split; [apply Rlt_le, Rinv_0_lt_compat; lra|].
        rewrite <- Rinv_1. apply Rinv_le_contravar; lra. }
      assert (T2 : Rabs (1 / q) < top) by (apply small_top with 1; [rewrite Rabs_pos_eq|]; lra).
      rewrite round_fin by exact T2. exists (round A (1 / q)). split; [reflexivity|].
      pose proof (sp_nearest A SPA _ T2) as N2. split.
      * apply (nearest_ge _ _ _ N2 single_zero); lra.
      * apply (nearest_le _ _ _ N2 single_one); lra.
    + exists 0. split; [|lra]. unfold fpos. destruct (Rlt_dec 0 (1 + expo A (- z))); [|lra]. cbn [finf fdiv one32]. exact Z.
  - exists 0. split; [|lra]. cbn [fdiv one32]. exact Z.
Qed.
(** A multiple of 2^-24 lies within 2^-25 of any number in [0, 1]. *)
Lemma near_fraction x : 0 <= x <= 1 -> exists y, is_single y /\ Rabs (x - y) <= / 33554432.
Proof using Type.
  clear. intros Hx. destruct (archimed (x * 16777216 - 1 / 2)) as [H1 H2].
  set (n := up (x * 16777216 - 1 / 2)) in *. exists (IZR n / 16777216). split.
  - apply single_fraction.
    assert (L1 : (-1 < n)%Z) by (apply lt_IZR; lra).
    assert (L2 : (n < 16777218)%Z) by (apply lt_IZR; lra).
    assert (L3 : (n < 16777217)%Z).
    { destruct (Z.eq_dec n 16777217) as [E|E]; [|lia]. exfalso. rewrite E in *. lra. }
    change (2 ^ 24)%Z with 16777216%Z. lia.
  - apply Rabs_le. lra.
Qed.
Lemma thpl_one w b g : 18 <= w + b -> thpl_output32 A w b g = Some (Fin 1).
Proof using SPA.
  intros H. unfold thpl_output32. rewrite (sigmoid_large _ _ H). destruct (sigmoid_range g) as (c & -> & Hc).
  unfold sub32, fsub, mul32, add32. unfold one32. cbn [fneg fadd].
  assert (T : Rabs (1 + - c) < top) by (apply small_top with 1; [rewrite Rabs_pos_eq|]; lra).
  rewrite (round_fin (1 + - c)) by exact T. pose proof (sp_nearest A SPA _ T) as N. set (y := round A (1 + - c)) in *.
  assert (Y : 0 <= y <= 1).
  { split; [apply (nearest_ge _ _ _ N single_zero); lra|apply (nearest_le _ _ _ N single_one); lra]. }
  cbn [fmul]. rewrite Rmult_1_l.
  assert (Ty : Rabs y < top) by (apply small_top with 1; [rewrite Rabs_pos_eq|]; lra).
  rewrite (round_fin y) by exact Ty. rewrite (round_exact y (proj1 N) Ty). cbn [fadd].
  assert (Ts : Rabs (y + c) < top) by (apply small_top with 2; [rewrite Rabs_pos_eq|]; lra).
  rewrite round_fin by exact Ts. f_equal. f_equal.
  destruct (near_fraction (1 + - c) ltac:(lra)) as (f & Sf & Hf).
  pose proof (proj2 N f Sf) as D. assert (D2 : Rabs (1 + - c - y) <= / 33554432) by lra.
  apply abs_between in D2. destruct (Req_dec (y + c) (1 - / 33554432)) as [E|E].
  - rewrite E. exact (sp_even A SPA).
  - apply (nearest_one _ _ (sp_nearest A SPA _ Ts)). split; [|lra].
    destruct (Rle_lt_or_eq_dec (1 - / 33554432) (y + c)) as [G|G]; [lra|exact G|congruence].
Qed.
Lemma thpl_lost w b g : 18 <= w + b -> nth 0 (thpl_item32 A w b g) None = Some (Fin 0).
Proof using SPA. intros H. unfold thpl_item32. cbn [nth]. rewrite (thpl_one w b g H). apply sub_equal. Qed.
End Single.
