(** The size of the errors: EAP scores that do not underflow, and the MML loss, which never does. *)
From Coq Require Import Lia Lra.
From Verif Require Import Base BaseFacts RBase RFacts M_Data M_CV P_CV M_Logit M_Lik S_Lik P_Lik1 P_Lik2 P_Lik3 P_Lik5
  M_Est S_Est P_Est1 P_Est2 P_Est3 M_Under P_Single2 P_Single3 P_Under1.
Local Open Scope R_scope.
Import M_Est List.

(** ** Numbers *)
Lemma exp_600 : exp 600 <= IZR (2 ^ 960).
Proof.
  replace 600 with (INR 600) by (rewrite INR_IZR_INZ; reflexivity). apply Rle_trans with (1 := exp_power 600).
  rewrite (pow_IZR 3 600). apply IZR_le. vm_compute. discriminate.
Qed.
Lemma exp_746 : IZR (2 ^ 1074) <= exp 746.
Proof.
  assert (Sq : forall a b x, 0 <= a -> a <= exp x -> b <= a * a -> b <= exp (x + x)).
  { intros a b x Ha H1 H2. rewrite exp_plus. apply Rle_trans with (1 := H2). apply Rmult_le_compat; lra. }
  assert (E9 : 1001953125 / 1000000000 <= exp (1 / 512)).
  { pose proof (exp_above (1 / 512)). lra. }
  assert (E8 : 100391006 / 100000000 <= exp (1 / 256)).
  { replace (1 / 256) with (1 / 512 + 1 / 512) by lra. apply (Sq (1001953125 / 1000000000) _ _ ltac:(lra) E9). lra. }
  assert (E7 : 100783540 / 100000000 <= exp (1 / 128)).
  { replace (1 / 128) with (1 / 256 + 1 / 256) by lra. apply (Sq (100391006 / 100000000) _ _ ltac:(lra) E8). lra. }
  assert (E6 : 101573219 / 100000000 <= exp (1 / 64)).
  { replace (1 / 64) with (1 / 128 + 1 / 128) by lra. apply (Sq (100783540 / 100000000) _ _ ltac:(lra) E7). lra. }
  assert (E5 : 103171188 / 100000000 <= exp (1 / 32)).
  { replace (1 / 32) with (1 / 64 + 1 / 64) by lra. apply (Sq (101573219 / 100000000) _ _ ltac:(lra) E6). lra. }
  assert (E4 : 106442940 / 100000000 <= exp (1 / 16)).
  { replace (1 / 16) with (1 / 32 + 1 / 32) by lra. apply (Sq (103171188 / 100000000) _ _ ltac:(lra) E5). lra. }
  assert (E3 : 113300994 / 100000000 <= exp (1 / 8)).
  { replace (1 / 8) with (1 / 16 + 1 / 16) by lra. apply (Sq (106442940 / 100000000) _ _ ltac:(lra) E4). lra. }
  assert (E2 : 128371152 / 100000000 <= exp (1 / 4)).
  { replace (1 / 4) with (1 / 8 + 1 / 8) by lra. apply (Sq (113300994 / 100000000) _ _ ltac:(lra) E3). lra. }
  assert (E1 : 164791526 / 100000000 <= exp (1 / 2)).
  { replace (1 / 2) with (1 / 4 + 1 / 4) by lra. apply (Sq (128371152 / 100000000) _ _ ltac:(lra) E2). lra. }
  assert (E0 : 27155 / 10000 <= exp 1).
  { replace (exp 1) with (exp (1 / 2 + 1 / 2)) by (f_equal; lra). apply (Sq (164791526 / 100000000) _ _ ltac:(lra) E1). lra. }
  assert (P : forall n, (27155 / 10000) ^ n <= exp (INR n)).
  { induction n as [|n IH]; [cbn; rewrite exp_0; lra|]. rewrite S_INR, exp_plus. cbn [pow]. rewrite Rmult_comm.
    apply Rmult_le_compat; [apply pow_le; lra|lra|exact IH|exact E0]. }
  replace 746 with (INR 746) by (rewrite INR_IZR_INZ; reflexivity). apply Rle_trans with (2 := P 746%nat).
  unfold Rdiv. rewrite Rpow_mult_distr, pow_inv.
  apply Rmult_le_reg_r with (10000 ^ 746); [apply pow_lt; lra|].
  rewrite Rmult_assoc, Rinv_l, Rmult_1_r by (apply pow_nonzero; lra).
  rewrite (pow_IZR 10000 746), (pow_IZR 27155 746), <- mult_IZR. apply IZR_le. vm_compute. discriminate.
Qed.

(** ** EAP *)
Lemma eap_close dx d u (grid : list (list R)) (x : list R -> R) k lo hi : close_exponential d u dx -> 0 <= d -> 0 <= u ->
  (forall t, In t grid -> x t <= 600) -> (exists t, In t grid /\ -600 <= x t) ->
  (forall t, In t grid -> lo <= nth k t 0 <= hi) -> d + INR (length grid) * (u * exp 600) <= 1 / 2 ->
  rsum (map (fun t => dx (x t)) grid) <> 0 /\
  Rabs (rsum (map (fun t => nth k t 0 * dx (x t)) grid) / rsum (map (fun t => dx (x t)) grid) -
        rsum (map (fun t => nth k t 0 * exp (x t)) grid) / rsum (map (fun t => exp (x t)) grid))
    <= (hi - lo) * (2 * (d + INR (length grid) * (u * exp 600))).
Proof.
  intros [_ C] Hd Hu Hx (t0 & I0 & L0) Hv He. set (eta := d + INR (length grid) * (u * exp 600)) in *.
  assert (Big : exp (-600) <= rsum (map (fun t => exp (x t)) grid)).
  { apply Rle_trans with (exp (x t0)); [apply exp_le, L0|]. clear - I0.
    induction grid as [|t grid IH]; [destruct I0|]. cbn [map rsum].
    assert (N : 0 <= rsum (map (fun t => exp (x t)) grid)).
    { clear. induction grid as [|t grid IH]; cbn [map rsum]; [lra|]. pose proof (exp_pos (x t)). lra. }
    destruct I0 as [-> |I0]; [lra|]. specialize (IH I0). pose proof (exp_pos (x t)). lra. }
  pose proof (exp_pos (-600)) as P6. pose proof (exp_pos 600) as P6'.
  assert (E6 : exp (-600) * exp 600 = 1) by (rewrite <- exp_plus; replace (-600 + 600) with 0 by lra; apply exp_0).
  destruct (means_close (fun t => nth k t 0) (fun t => exp (x t)) (fun t => dx (x t)) grid lo hi eta) as [Q1 Q2].
  - exact Hv.
  - intros; apply Rlt_le, exp_pos.
  - lra.
  - set (s := rsum (map (fun t => exp (x t)) grid)) in *.
    apply Rle_trans with (rsum (map (fun t => d * exp (x t) + u) grid)).
    + assert (G : forall l, (forall t, In t l -> x t <= 600) ->
        rsum (map (fun t => Rabs (dx (x t) - exp (x t))) l) <= rsum (map (fun t => d * exp (x t) + u) l)).
      { clear - C. induction l as [|t l IH]; intros H; cbn [map rsum]; [lra|]. pose proof (proj2 (C (x t) (H t (or_introl eq_refl)))).
        specialize (IH (fun t0 I => H t0 (or_intror I))). lra. }
      apply G, Hx.
    + assert (E : rsum (map (fun t => d * exp (x t) + u) grid) = d * s + INR (length grid) * u).
      { unfold s. clear. induction grid as [|t grid IH]; [cbn; lra|]. cbn [map rsum length]. rewrite IH, S_INR. lra. }
      rewrite E. unfold eta. rewrite Rmult_plus_distr_r. apply Rplus_le_compat_l.
      rewrite Rmult_assoc. apply Rmult_le_compat_l; [apply pos_INR|]. rewrite Rmult_assoc.
      rewrite <- (Rmult_1_r u) at 1. apply Rmult_le_compat_l; [exact Hu|]. rewrite <- E6, Rmult_comm.
      apply Rmult_le_compat_l; lra.
  - split; [|exact He]. unfold eta. apply Rplus_le_le_0_compat; [exact Hd|]. apply Rmult_le_pos; [apply pos_INR|].
    apply Rmult_le_pos; lra.
  - split; [lra|exact Q2].
Qed.

(** ** MML *)
Lemma fmax_pos l : l <> [] -> Forall (fun a => 0 < a) l ->
  exists c, In c l /\ (forall a, In a l -> a <= c) /\ fmax (map (fun a => Some (Fin (ln a))) l) = Some (Fin (ln c)).
Proof.
  induction l as [|a l IH]; intros Hne F; [congruence|]. pose proof (Forall_inv F) as Fa. pose proof (Forall_inv_tail F) as F2.
  cbn [map fmax fold_right]. fold (fmax (map (fun a => Some (Fin (ln a))) l)).
  destruct l as [|b l'].
  - exists a. cbn. split; [now left|]. split; [|reflexivity]. intros x [<-|[]]; lra.
  - set (l := b :: l') in *. destruct (IH ltac:(discriminate) F2) as (c & Ic & Lc & ->).
    assert (Hc : 0 < c) by (rewrite Forall_forall in F2; exact (F2 c Ic)). cbn [fgt].
    destruct (Rlt_dec (ln c) (ln a)) as [G|G].
    + exists a. apply ln_lt_inv in G; [|assumption|assumption]. split; [now left|]. split; [|reflexivity].
      intros x [<-|Ix]; [lra|]. specialize (Lc x Ix). lra.
    + exists c. split; [now right|]. split; [|reflexivity]. intros x [<-|Ix]; [|exact (Lc x Ix)].
      destruct (Rle_lt_dec a c) as [L|L]; [exact L|]. exfalso. apply G. apply ln_increasing; assumption.
Qed.
Lemma log_sums_close a b eta : 1 <= a -> 1 <= b -> 0 <= eta <= 1 / 2 -> Rabs (a - b) <= eta * b ->
  Rabs (ln a - ln b) <= 2 * eta.
Proof.
  intros Ha Hb He H. apply abs_between in H. apply Rabs_le.
  assert (P : eta * b <= 1 / 2 * b) by (apply Rmult_le_compat_r; lra).
  assert (Q : forall p q, 0 < p -> 0 < q -> ln p - ln q <= p / q - 1).
  { intros p q Hp Hq. assert (E : ln p - ln q = ln (p / q)).
    { unfold Rdiv. rewrite ln_mult by (try apply Rinv_0_lt_compat; lra). rewrite ln_Rinv by lra. ring. }
    rewrite E. apply ln_below. apply Rdiv_lt_0_compat; assumption. }
  pose proof (Q a b ltac:(lra) ltac:(lra)) as Q1. pose proof (Q b a ltac:(lra) ltac:(lra)) as Q2.
  assert (R1 : a / b - 1 <= eta).
  { apply Rmult_le_reg_r with b; [lra|]. unfold Rdiv. rewrite Rmult_minus_distr_r, Rmult_assoc, Rinv_l by lra. lra. }
  assert (R2 : b / a - 1 <= 2 * eta).
  { apply Rmult_le_reg_r with a; [lra|]. unfold Rdiv. rewrite Rmult_minus_distr_r, Rmult_assoc, Rinv_l by lra.
    assert (2 * eta * (b / 2) <= 2 * eta * a) by (apply Rmult_le_compat_l; lra). lra. }
  lra.
Qed.
Lemma logsumexp_close dx d u l : close_exponential d u dx -> 0 <= d -> 0 <= u -> l <> [] -> Forall (fun a => 0 < a) l ->
  d + INR (length l) * u <= 1 / 2 ->
  exists v, logsumexp_by dx (map (fun a => flog (Some a)) l) = Some (Fin v) /\
    Rabs (v - ln (rsum l)) <= 2 * (d + INR (length l) * u).
Proof.
  intros [C0 C] Hd Hu Hne F He.
  assert (El : map (fun a => flog (Some a)) l = map (fun a => Some (Fin (ln a))) l).
  { apply map_ext_in. intros a Ia. rewrite Forall_forall in F. now rewrite flog_pos by auto. }
  rewrite El. destruct (fmax_pos l Hne F) as (c & Ic & Lc & Em).
  assert (Hc : 0 < c) by (rewrite Forall_forall in F; auto).
  assert (Lx : forall a, In a l -> ln a - ln c <= 0).
  { intros a Ia. rewrite Forall_forall in F. specialize (F a Ia). specialize (Lc a Ia).
    destruct Lc as [Lc| ->]; [pose proof (ln_increasing a c F Lc)|]; lra. }
  assert (Ex : forall a, In a l -> exp (ln a - ln c) = a / c).
  { intros a Ia. rewrite Forall_forall in F. specialize (F a Ia).
    unfold Rminus. rewrite exp_plus, exp_Ropp, !exp_ln by lra. reflexivity. }
  unfold logsumexp_by. rewrite Em, map_map.
  rewrite (fsum_map_fin _ (fun a => dx (ln a - ln c))) by (intros; reflexivity).
  set (s := rsum (map (fun a => dx (ln a - ln c)) l)).
  assert (N0 : forall a, In a l -> 0 <= dx (ln a - ln c)) by (intros a Ia; apply C; specialize (Lx a Ia); lra).
  assert (S1 : 1 <= s).
  { unfold s. clear - Ic N0 C0. induction l as [|a l IH]; [destruct Ic|]. cbn [map rsum].
    assert (N : forall l, (forall a, In a l -> 0 <= dx (ln a - ln c)) -> 0 <= rsum (map (fun a => dx (ln a - ln c)) l)).
    { clear. induction l as [|a l IH]; intros H; cbn [map rsum]; [lra|]. pose proof (H a (or_introl eq_refl)).
      specialize (IH (fun b I => H b (or_intror I))). lra. }
    destruct Ic as [-> |Ic].
    - pose proof (N l (fun b I => N0 b (or_intror I))). unfold Rminus. rewrite Rplus_opp_r, C0. unfold Rminus in H. lra.
    - pose proof (N0 a (or_introl eq_refl)). specialize (IH Ic (fun b I => N0 b (or_intror I))). lra. }
  assert (T1 : 1 <= rsum l / c).
  { apply Rmult_le_reg_r with c; [exact Hc|]. unfold Rdiv. rewrite Rmult_assoc, Rinv_l by lra. rewrite Rmult_1_l, Rmult_1_r.
    clear - Ic F. induction l as [|a l IH]; [destruct Ic|]. cbn [rsum].
    assert (0 <= rsum l) by (apply rsum_nonneg; apply Forall_impl with (2 := Forall_inv_tail F); intros; lra).
    pose proof (Forall_inv F). destruct Ic as [-> |Ic]; [lra|]. specialize (IH (Forall_inv_tail F) Ic). lra. }
  exists (ln s + ln c). split.
  - cbn [flogf]. rewrite flog_pos by lra. reflexivity.
  - assert (D : Rabs (s - rsum l / c) <= (d + INR (length l) * u) * (rsum l / c)).
    { assert (D0 : Rabs (s - rsum l / c) <= d * (rsum l / c) + INR (length l) * u).
      { unfold s. rewrite <- rsum_map_div. clear - C Ex Lx. induction l as [|a l IH].
        - cbn. unfold Rminus. rewrite Rplus_opp_r, Rabs_R0. lra.
        - cbn [map rsum length]. rewrite S_INR.
          specialize (IH (fun b I => Lx b (or_intror I)) (fun b I => Ex b (or_intror I))).
          pose proof (Lx a (or_introl eq_refl)) as La. pose proof (proj2 (C (ln a - ln c) ltac:(lra))) as Ca.
          rewrite (Ex a (or_introl eq_refl)) in Ca.
          match goal with |- Rabs (?p + ?q - (?r + ?t)) <= _ => replace (p + q - (r + t)) with ((p - r) + (q - t)) by ring end.
          apply Rle_trans with (1 := Rabs_triang _ _). lra. }
      apply Rle_trans with (1 := D0). rewrite Rmult_plus_distr_r. apply Rplus_le_compat_l.
      assert (P : 0 <= INR (length l) * u) by (apply Rmult_le_pos; [apply pos_INR|exact Hu]).
      rewrite <- (Rmult_1_r (INR (length l) * u)) at 1. apply Rmult_le_compat_l; assumption. }
    assert (Pn : 0 <= INR (length l) * u) by (apply Rmult_le_pos; [apply pos_INR|exact Hu]).
    pose proof (log_sums_close s (rsum l / c) (d + INR (length l) * u) S1 T1 ltac:(split; [lra|exact He]) D) as L.
    assert (E : ln (rsum l / c) = ln (rsum l) - ln c).
    { assert (0 < rsum l).
      { pose proof (Rinv_0_lt_compat c Hc). apply Rmult_lt_reg_r with (/ c); [assumption|]. unfold Rdiv in T1. rewrite Rmult_0_l. lra. }
      unfold Rdiv. rewrite ln_mult by (try apply Rinv_0_lt_compat; lra). rewrite ln_Rinv by lra. ring. }
    rewrite E in L. replace (ln s + ln c - ln (rsum l)) with (ln s - (ln (rsum l) - ln c)) by ring. exact L.
Qed.

Lemma mml_close dx d u m p points ws data : close_exponential d u dx -> 0 <= d -> 0 <= u ->
  has_probabilities m p -> (0 < em_items m)%nat ->
  (0 < length points)%nat -> length ws = length points -> Forall (fun t => length t = em_lv m) points ->
  Forall (fun w => 0 < w) ws -> legal_data (em_cats m) data ->
  (forall row t, In row data -> In t points -> 0 < likelihood p t row) ->
  d + INR (length points) * u <= 1 / 2 ->
  exists v, mml_loss_by dx m points (map (fun w => flog (Some w)) ws) (Wide (em_items m) data) = Ok (Some (Fin v)) /\
    Rabs (v - - rsum (map (fun row => ln (marginal_likelihood p points ws row)) data))
      <= INR (length data) * (2 * (d + INR (length points) * u)).
Proof.
  intros Hdx Hd0 Hu Hm HI HQ Hw HF Hws Hd Hpos He.
  set (I := em_items m) in *. set (N := length data). set (Q := length points) in *.
  destruct (respondent_ll m p Hm HI (repeat_interleave N points) (tile Q data)) as (out & cells & E1 & E2 & E3 & E4).
  { now apply repeat_interleave_Forall. }
  { rewrite repeat_interleave_length, tile_length. reflexivity. }
  { now apply tile_Forall. }
  unfold mml_loss_by. cbn [w_rows w_cols]. fold N Q I. rewrite E1. cbn [bind]. fold I in E2. rewrite E2. cbn [bind cells_of].
  fold I in E3, E4. rewrite tile_length in E3. fold N in E3. rewrite (reshape_rect I cells (Q * N)) by auto. cbn [bind].
  rewrite E4. unfold add_vec.
  rewrite zip_with_length, !repeat_interleave_length, tile_length, map_length, Hw. fold N Q.
  rewrite Nat.min_id, Nat.eqb_refl. cbn [bind].
  set (sums := zip_with fadd _ _).
  assert (Hsl : length sums = (Q * N)%nat).
  { unfold sums. rewrite zip_with_length, zip_with_length, !repeat_interleave_length, tile_length, map_length, Hw. fold N Q. lia. }
  assert (Hsn : forall q n w t row, nth_error ws q = Some w -> nth_error points q = Some t -> nth_error data n = Some row ->
    nth_error sums (q * N + n) = Some (flog (Some (w * likelihood p t row)))).
  { intros q n w t row Eq Et En. assert (Hn : (n < N)%nat) by (apply nth_error_Some; congruence).
    assert (Hq : (q < Q)%nat) by (apply nth_error_Some; congruence).
    unfold sums. rewrite !nth_error_zip_with.
    rewrite !nth_error_repeat_interleave by auto.
    unfold N at 1. rewrite nth_error_map, Eq, Et, nth_error_tile, En by auto. cbn [option_map]. f_equal. apply flog_mul.
    - rewrite Forall_forall in Hws. apply Rlt_le, Hws. eapply nth_error_In; eauto.
    - apply Rlt_le, Hpos; eapply nth_error_In; eauto. }
  rewrite (view_rows_rect Q N sums HQ Hsl). cbn [bind]. rewrite Hsl.
  replace (Q * N / Q)%nat with N by (rewrite Nat.mul_comm, Nat.div_mul; lia).
  assert (Hcol : forall n row, nth_error data n = Some row ->
    column None n (map (fun i => firstn N (skipn (i * N) sums)) (seq 0 Q)) =
      map (fun a => flog (Some a)) (zip_with (fun w t => w * likelihood p t row) ws points)).
  { intros n row En. assert (Hn : (n < N)%nat) by (apply nth_error_Some; congruence). unfold column. rewrite map_map.
    apply nth_error_ext. intro q. destruct (Nat.lt_ge_cases q Q) as [Hq|Hq].
    - rewrite (nth_error_map_seq _ Q 0 q) by auto. cbn [Nat.add].
      destruct (some_row ws q) as [w Ew]; [lia|]. destruct (some_row points q) as [t Et]; [lia|].
      rewrite nth_error_map, nth_error_zip_with, Ew, Et. cbn [option_map]. f_equal.
      rewrite firstn_skipn_nth by auto. apply nth_error_nth. now apply Hsn.
    - rewrite !(proj2 (nth_error_None _ _)); auto.
      + rewrite map_length, zip_with_length. lia.
      + rewrite map_length, seq_length. lia. }
  set (L := fun n => logsumexp_by dx (column None n (map (fun i => firstn N (skipn (i * N) sums)) (seq 0 Q)))).
  assert (HL : forall n row, nth_error data n = Some row -> exists v, L n = Some (Fin v) /\
    Rabs (v - ln (marginal_likelihood p points ws row)) <= 2 * (d + INR Q * u)).
  { intros n row En. unfold L. rewrite (Hcol n row En).
    assert (Lz : length (zip_with (fun w t => w * likelihood p t row) ws points) = Q) by (rewrite zip_with_length, Hw; fold Q; lia).
    rewrite <- Lz. apply (logsumexp_close dx d u); auto.
    - intros E. rewrite E in Lz. cbn in Lz. lia.
    - apply Forall_forall. intros a Ha. apply In_nth_error in Ha as [q Hq]. rewrite nth_error_zip_with in Hq.
      destruct (nth_error ws q) as [w|] eqn:Ew; [|discriminate]. destruct (nth_error points q) as [t|] eqn:Et; [|discriminate].
      injection Hq as <-. apply Rmult_lt_0_compat.
      + rewrite Forall_forall in Hws. apply Hws. eapply nth_error_In; eauto.
      + apply Hpos; eapply nth_error_In; eauto.
    - rewrite Lz. exact He. }
  assert (HS : forall rows k, (forall j row, nth_error rows j = Some row -> nth_error data (k + j) = Some row) ->
    exists v, fsum (map L (seq k (length rows))) = Some (Fin v) /\
      Rabs (v - rsum (map (fun row => ln (marginal_likelihood p points ws row)) rows)) <= INR (length rows) * (2 * (d + INR Q * u))).
  { induction rows as [|row rows IH]; intros k Hk.
    - exists 0. split; [reflexivity|]. cbn. unfold Rminus. rewrite Rplus_opp_r, Rabs_R0. lra.
    - destruct (HL k row) as (v & Ev & Cv); [specialize (Hk O row eq_refl); now rewrite Nat.add_0_r in Hk|].
      destruct (IH (S k)) as (v' & Ev' & Cv').
      { intros j r Hj. specialize (Hk (S j) r Hj). now rewrite Nat.add_succ_r in Hk. }
      exists (v + v'). cbn [length seq map fsum fold_right]. fold (fsum (map L (seq (S k) (length rows)))). rewrite Ev, Ev'.
      split; [reflexivity|]. cbn [rsum]. change (S (length rows)) with (S (length rows)). rewrite S_INR.
      match goal with |- Rabs (?a + ?b - (?c + ?e)) <= _ => replace (a + b - (c + e)) with ((b - e) + (a - c)) by ring end.
      apply Rle_trans with (1 := Rabs_triang _ _). lra. }
  destruct (HS data 0%nat (fun j row H => H)) as (v & Ev & Cv). fold N in Ev, Cv.
  exists (- v). split.
  - fold L. change (map (fun n => logsumexp_by dx (column None n (map (fun i => firstn N (skipn (i * N) sums)) (seq 0 Q)))) (seq 0 N))
      with (map L (seq 0 N)). rewrite Ev. reflexivity.
  - replace (- v - - rsum (map (fun row => ln (marginal_likelihood p points ws row)) data))
      with (- (v - rsum (map (fun row => ln (marginal_likelihood p points ws row)) data))) by ring. rewrite Rabs_Ropp. exact Cv.
Qed.
