(** The cross-entropy log-likelihood in single precision is finite and close to the exact one. *)
From Coq Require Import Reals ZArith List Lia Lra.
From Verif Require Import Base BaseFacts RBase RFacts M_Data M_Logit M_Lik M_Est M_Single P_Single1 P_Single2.
Import ListNotations.
Import M_Est List.
Local Open Scope R_scope.

(** ** Relative error of rounding *)
Lemma single_opp x : is_single x -> is_single (- x).
Proof.
  intros (M & e & HM & He & ->). exists (- M)%Z, e. split; [rewrite Z.abs_opp; exact HM|]. split; [exact He|].
  rewrite Z.mul_opp_l, opp_IZR. field. apply Rgt_not_eq, scale_pos.
Qed.
Lemma near_pos x : 0 <= x < top -> exists z, is_single z /\ Rabs (x - z) <= x / 8388608 + / IZR (2 ^ 149).
Proof.
  intros Hx. pose proof scale_pos as Hs. pose proof tiny_pos as Ht. set (n := x * IZR (2 ^ 149)).
  assert (Ex : x = n / IZR (2 ^ 149)) by (unfold n; field; lra).
  assert (Hn : 0 <= n < IZR (2 ^ 277)).
  { split; [apply Rmult_le_pos; lra|]. apply Rlt_trans with (top * IZR (2 ^ 149)); [apply Rmult_lt_compat_r; lra|].
    unfold top. rewrite <- mult_IZR. apply IZR_lt. reflexivity. }
  destruct (archimed n) as [U1 U2]. set (N := (up n - 1)%Z).
  assert (HN : IZR N <= n < IZR N + 1) by (unfold N; rewrite minus_IZR; lra).
  assert (N0 : (0 <= N)%Z) by (unfold N; assert (0 < up n)%Z by (apply lt_IZR; lra); lia).
  assert (NU : (N < 2 ^ 277)%Z) by (apply lt_IZR; lra).
  assert (Div : forall a b : R, a <= b -> a / IZR (2 ^ 149) <= b / IZR (2 ^ 149)).
  { intros a b H. unfold Rdiv. apply Rmult_le_compat_r; lra. }
  destruct (Z_lt_ge_dec N (2 ^ 24)) as [L|G].
  - exists (IZR (N * 2 ^ 0) / IZR (2 ^ 149)). split; [apply single_of; lia|].
    rewrite Z.pow_0_r, Z.mul_1_r. rewrite Ex at 1.
    assert (D0 : n / IZR (2 ^ 149) - IZR N / IZR (2 ^ 149) = (n - IZR N) / IZR (2 ^ 149)) by (field; lra).
    rewrite D0. pose proof (Div 0 (n - IZR N) ltac:(lra)) as P0. pose proof (Div (n - IZR N) 1 ltac:(lra)) as P1.
    unfold Rdiv in P0, P1 |- *. rewrite Rabs_pos_eq by lra. lra.
  - set (k := Z.log2 N). destruct (Z.log2_spec N ltac:(lia)) as [K1 K2]. fold k in K1, K2.
    assert (Hk : (24 <= k <= 276)%Z).
    { split; [apply Z.log2_le_pow2; lia|]. assert (k < 277)%Z; [|lia]. apply Z.log2_lt_pow2; lia. }
    set (e := (k - 23)%Z). assert (He : (0 < 2 ^ e)%Z) by (apply Z.pow_pos_nonneg; unfold e; lia).
    set (M := (N / 2 ^ e)%Z). pose proof (Z.div_mod N (2 ^ e) ltac:(lia)) as DM. fold M in DM.
    pose proof (Z.mod_pos_bound N (2 ^ e) He) as MB.
    assert (M0 : (0 <= M)%Z) by (apply Z.div_pos; lia).
    assert (MU : (M < 2 ^ 24)%Z).
    { apply Z.div_lt_upper_bound; [exact He|]. rewrite <- Z.pow_add_r by (unfold e; lia).
      unfold e. replace (k - 23 + 24)%Z with (Z.succ k) by lia. exact K2. }
    exists (IZR (M * 2 ^ e) / IZR (2 ^ 149)). split.
    + exists M, e. split; [lia|]. split; [unfold e; lia|reflexivity].
    + rewrite Ex at 1.
      assert (D0 : n / IZR (2 ^ 149) - IZR (M * 2 ^ e) / IZR (2 ^ 149) = (n - IZR (M * 2 ^ e)) / IZR (2 ^ 149)) by (field; lra).
      rewrite D0.
      assert (B1 : 0 <= n - IZR (M * 2 ^ e)) by (assert (IZR (M * 2 ^ e) <= IZR N) by (apply IZR_le; lia); lra).
      assert (B2 : n - IZR (M * 2 ^ e) <= IZR (2 ^ e)).
      { assert (IZR N + 1 <= IZR (M * 2 ^ e) + IZR (2 ^ e)); [|lra]. rewrite <- !plus_IZR. apply IZR_le. lia. }
      assert (B3 : IZR (2 ^ e) <= n / 8388608).
      { apply Rmult_le_reg_r with 8388608; [lra|]. unfold Rdiv. rewrite Rmult_assoc, Rinv_l, Rmult_1_r by lra.
        apply Rle_trans with (IZR N); [|lra]. rewrite <- mult_IZR. apply IZR_le. apply Z.le_trans with (2 := K1).
        replace k with (e + 23)%Z by (unfold e; lia). rewrite Z.pow_add_r by (unfold e; lia).
        change (2 ^ 23)%Z with 8388608%Z. lia. }
      pose proof (Div 0 (n - IZR (M * 2 ^ e)) B1) as P0.
      rewrite Rabs_pos_eq by (unfold Rdiv in P0 |- *; lra).
      apply Rle_trans with ((n / 8388608) / IZR (2 ^ 149)); [apply Div; lra|].
      replace (n / 8388608 / IZR (2 ^ 149)) with (x / 8388608) by (rewrite Ex; field; lra). lra.
Qed.
Lemma nearest_error y x : Rabs x < top -> nearest y x -> Rabs (y - x) <= Rabs x / 8388608 + / IZR (2 ^ 149).
Proof.
  intros T [_ N]. rewrite Rabs_minus_sym. destruct (Rle_lt_dec 0 x) as [P|P].
  - rewrite (Rabs_pos_eq x) in * by exact P. destruct (near_pos x (conj P T)) as (z & Sz & Hz).
    apply Rle_trans with (1 := N z Sz). exact Hz.
  - rewrite (Rabs_left x) in * by exact P. destruct (near_pos (- x) ltac:(lra)) as (z & Sz & Hz).
    apply Rle_trans with (1 := N (- z) (single_opp z Sz)). apply Rle_trans with (2 := Hz). apply Req_le.
    rewrite <- (Rabs_Ropp (- x - z)). f_equal. ring.
Qed.

(** ** Elementary inequalities *)
Lemma ln_below x : 0 < x -> ln x <= x - 1.
Proof.
  intros H. destruct (Req_dec (ln x) 0) as [E|N].
  - assert (x = 1) by (rewrite <- (exp_ln x H), E; apply exp_0). lra.
  - pose proof (exp_ineq1 (ln x) N) as P. rewrite exp_ln in P by exact H. lra.
Qed.
Lemma ln_close a b : 1 <= a -> 1 <= b -> Rabs (ln a - ln b) <= Rabs (a - b).
Proof.
  assert (G : forall p q, 1 <= q -> q <= p -> 0 <= ln p - ln q <= p - q).
  { clear a b. intros a b Hb L. split.
    - destruct L as [L| ->]; [pose proof (ln_increasing b a ltac:(lra) L)|]; lra.
    - assert (E : ln a - ln b = ln (a / b)).
      { unfold Rdiv. rewrite ln_mult by (try apply Rinv_0_lt_compat; lra). rewrite ln_Rinv by lra. ring. }
      rewrite E. apply Rle_trans with (1 := ln_below (a / b) ltac:(apply Rdiv_lt_0_compat; lra)).
      replace (a / b - 1) with ((a - b) * / b) by (field; lra).
      apply Rle_trans with ((a - b) * 1); [|lra]. apply Rmult_le_compat_l; [lra|].
      rewrite <- Rinv_1. apply Rinv_le_contravar; lra. }
  intros Ha Hb. destruct (Rle_lt_dec b a) as [L|L].
  - destruct (G a b Hb L). rewrite !Rabs_pos_eq by lra. lra.
  - destruct (G b a Ha ltac:(lra)). rewrite (Rabs_minus_sym (ln a)), (Rabs_minus_sym a), !Rabs_pos_eq by lra. lra.
Qed.
Lemma exp_above x : 1 + x <= exp x.
Proof. destruct (Req_dec x 0) as [-> |N]; [rewrite exp_0; lra|apply Rlt_le, exp_ineq1, N]. Qed.
Lemma exp_close a b c : a <= c -> b <= c -> Rabs (exp a - exp b) <= Rabs (a - b) * exp c.
Proof.
  assert (G : forall a b : R, a <= b -> b <= c -> 0 <= exp b - exp a <= (b - a) * exp c).
  { intros x y L C. pose proof (exp_le x y L). split; [lra|].
    pose proof (exp_above (x - y)) as Q. pose proof (exp_pos y) as Py.
    assert (E : exp x = exp y * exp (x - y)) by (rewrite <- exp_plus; f_equal; ring).
    apply Rle_trans with ((y - x) * exp y).
    - rewrite E. pose proof (Rmult_le_compat_l (exp y) _ _ ltac:(lra) Q). lra.
    - apply Rmult_le_compat_l; [lra|apply exp_le, C]. }
  intros Ha Hb. destruct (Rle_lt_dec a b) as [L|L].
  - destruct (G a b L Hb). rewrite (Rabs_minus_sym (exp a)), (Rabs_minus_sym a), !Rabs_pos_eq by lra. lra.
  - destruct (G b a ltac:(lra) Ha). rewrite !Rabs_pos_eq by lra. lra.
Qed.
(** x exp(-x/2) is at most 2. *)
Lemma decay x : 0 <= x -> x * exp (- (x / 2)) <= 2.
Proof.
  intros H. pose proof (exp_above (x / 2)) as Q. rewrite exp_Ropp. pose proof (exp_pos (x / 2)).
  apply Rmult_le_reg_r with (exp (x / 2)); [assumption|]. rewrite Rmult_assoc, Rinv_l by lra. lra.
Qed.

Section Single.
Variable A : arith.
Hypothesis SPA : single_precision A.
Notation eps := (/ 8388608).

(** One term of the softmax. *)
Lemma shift_close z m : Rabs z <= 10000000000000000000000000000000000000 ->
  Rabs m <= 10000000000000000000000000000000000000 -> z <= m ->
  exists d, sub32 A (Some (Fin z)) (Some (Fin m)) = Some (Fin d) /\ d <= 0 /\
    Rabs (d - (z - m)) <= (m - z) * eps + / IZR (2 ^ 149) /\ (z = m -> d = 0).
Proof using SPA.
  intros Hz Hm L. apply abs_between in Hz, Hm.
  assert (T : Rabs (z + - m) < top).
  { apply small_top with 20000000000000000000000000000000000000; [apply Rabs_le|]; lra. }
  unfold sub32, fsub. cbn [fneg fadd]. rewrite round_fin by exact T. exists (round A (z + - m)).
  pose proof (sp_nearest A SPA _ T) as N. split; [reflexivity|]. split; [|split].
  - apply (nearest_le _ _ _ N single_zero). lra.
  - pose proof (nearest_error _ _ T N) as E. rewrite (Rabs_left1 (z + - m)) in E by lra.
    unfold Rdiv, Rminus in E |- *. lra.
  - intros ->. rewrite Rplus_opp_r in N |- *. apply nearest_self; [exact N|exact single_zero].
Qed.
Lemma exp_term d D : d <= 0 -> 0 <= D -> Rabs (d - - D) <= D * eps + / IZR (2 ^ 149) ->
  exists e, exp32 A (Some (Fin d)) = Some (Fin e) /\ 0 <= e <= 1 /\ Rabs (e - exp (- D)) <= 8 * eps /\ (d = 0 -> e = 1).
Proof using SPA.
  intros Hd HD C. pose proof tiny as T0. pose proof tiny_pos as T1. pose proof top_large as TL.
  destruct (sp_exp A SPA d) as [P E]. pose proof (sp_exp_one A SPA d Hd) as O.
  unfold exp32. destruct (Rlt_dec (expo A d) top) as [_|N]; [|lra]. exists (expo A d).
  split; [reflexivity|]. split; [lra|]. split; [|intros ->; exact (sp_exp_zero A SPA)].
  assert (Ed : exp d <= 1) by (rewrite <- exp_0; apply exp_le; lra).
  assert (X : Rabs (exp d - exp (- D)) <= 5 * eps).
  { apply abs_between in C as C'.
    pose proof (exp_close d (- D) (- (D / 2) + / IZR (2 ^ 149)) ltac:(lra) ltac:(lra)) as Q.
    apply Rle_trans with (1 := Q). rewrite exp_plus.
    assert (H2 : exp (/ IZR (2 ^ 149)) <= 1 + 1 / 10).
    { apply Rle_trans with (exp (/ 1000)); [apply exp_le; lra|].
      pose proof (exp_above (- / 1000)) as W. pose proof (exp_pos (/ 1000)) as W0.
      assert (W1 : exp (/ 1000) * exp (- / 1000) = 1) by (rewrite <- exp_plus, Rplus_opp_r; apply exp_0).
      pose proof (Rmult_le_compat_l (exp (/ 1000)) _ _ ltac:(lra) W). lra. }
    pose proof (decay D HD) as Dc. pose proof (exp_pos (- (D / 2))) as Pe.
    assert (Le : exp (- (D / 2)) <= 1) by (rewrite <- exp_0; apply exp_le; lra).
    assert (F : Rabs (d - - D) * exp (- (D / 2)) <= 2 * eps + / IZR (2 ^ 149)).
    { apply Rle_trans with ((D * eps + / IZR (2 ^ 149)) * exp (- (D / 2))); [apply Rmult_le_compat_r; lra|].
      pose proof (Rmult_le_compat_l (/ IZR (2 ^ 149)) _ _ ltac:(lra) Le). lra. }
    pose proof (Rabs_pos (d - - D)) as Pa. rewrite <- Rmult_assoc.
    apply Rle_trans with ((2 * eps + / IZR (2 ^ 149)) * (1 + 1 / 10)); [|lra].
    apply Rmult_le_compat; [apply Rmult_le_pos; lra|apply Rlt_le, exp_pos|exact F|exact H2]. }
  replace (expo A d - exp (- D)) with ((expo A d - exp d) + (exp d - exp (- D))) by ring.
  apply Rle_trans with (1 := Rabs_triang _ _). lra.
Qed.

(** The running sum of terms in [0, 1]. *)
Lemma sum_close l : forall (s : R) (n : nat),
  Forall (fun a => exists e, a = Some (Fin e) /\ 0 <= e <= 1) l -> is_single s -> 0 <= s <= INR n ->
  (Z.of_nat (n + length l) <= 2 ^ 24)%Z ->
  exists t, fold_left (add32 A) l (Some (Fin s)) = Some (Fin t) /\ is_single t /\ s <= t <= INR (n + length l) /\
    (In (Some (Fin 1)) l -> 1 <= t) /\
    Rabs (t - (s + rsum (map (fun a => match a with Some (Fin e) => e | _ => 0 end) l)))
      <= INR (length l) * ((INR (n + length l) + 1) * eps).
Proof using SPA.
  pose proof tiny as T0. pose proof tiny_pos as T1.
  induction l as [|a l IH]; intros s n F Ss Hs Hn.
  - exists s. cbn [fold_left length map rsum INR]. rewrite Nat.add_0_r. split; [reflexivity|]. split; [exact Ss|].
    split; [lra|]. split; [intros []|]. cbn. rewrite Rplus_0_r. unfold Rminus. rewrite Rplus_opp_r, Rabs_R0. lra.
  - destruct (Forall_inv F) as (e & -> & He). pose proof (Forall_inv_tail F) as F2. clear F. cbn [length] in Hn.
    cbn [fold_left]. unfold add32 at 2. cbn [fadd].
    assert (Hb : INR n + 1 <= 16777216).
    { rewrite <- S_INR, INR_IZR_INZ. apply IZR_le. change (2 ^ 24)%Z with 16777216%Z in Hn. lia. }
    assert (T : Rabs (s + e) < top) by (apply small_top with 16777216; [rewrite Rabs_pos_eq|]; lra).
    rewrite round_fin by exact T. pose proof (sp_nearest A SPA _ T) as N. set (r := round A (s + e)) in *.
    assert (R1 : s <= r) by (apply (nearest_ge _ _ _ N Ss); lra).
    assert (R2 : r <= INR (S n)).
    { apply (nearest_le _ _ _ N); [|rewrite S_INR; lra]. rewrite INR_IZR_INZ. apply single_int. lia. }
    destruct (IH r (S n) F2 (proj1 N) ltac:(lra) ltac:(lia)) as (t & -> & St & Ht & H1 & Hc).
    exists t. split; [reflexivity|]. split; [exact St|]. cbn [length]. replace (n + S (length l))%nat with (S n + length l)%nat by lia.
    split; [lra|]. split.
    + intros [E|I]; [|exact (H1 I)]. injection E as ->.
      assert (1 <= r) by (apply (nearest_ge _ _ _ N single_one); lra). lra.
    + cbn [map rsum].
      set (Q := rsum (map (fun a => match a with Some (Fin e0) => e0 | _ => 0 end) l)) in *.
      set (c := (INR (S n + length l) + 1) * eps) in *.
      pose proof (nearest_error _ _ T N) as E. rewrite (Rabs_pos_eq (s + e)) in E by lra.
      assert (Lc : (s + e) / 8388608 + / IZR (2 ^ 149) <= c).
      { unfold c. assert (INR n + 1 <= INR (S n + length l)) by (rewrite <- S_INR; apply le_INR; lia). unfold Rdiv.
        apply Rle_trans with (INR (S n + length l) * eps + / IZR (2 ^ 149)); [|lra].
        apply Rplus_le_compat_r. apply Rmult_le_compat_r; lra. }
      replace (t - (s + (e + Q))) with ((t - (r + Q)) + (r - (s + e))) by ring.
      apply Rle_trans with (1 := Rabs_triang _ _). rewrite (S_INR (length l)).
      apply Rle_trans with (INR (length l) * c + c); [lra|]. lra.
Qed.

(** ** A row *)
Definition bounded_entry (e : ext) : Prop :=
  match e with Fin z => Rabs z <= 10000000000000000000000000000000000000 | NInf => True | PInf => False end.
Lemma fmax_row row : Forall bounded_entry row ->
  (fmax (map Some row) = Some NInf /\ Forall (fun e => e = NInf) row) \/
  exists m, fmax (map Some row) = Some (Fin m) /\ In (Fin m) row /\ forall z, In (Fin z) row -> z <= m.
Proof using Type.
  clear. induction row as [|a row IH]; intros F; [left; split; [reflexivity|constructor]|].
  pose proof (Forall_inv F) as Fa. pose proof (Forall_inv_tail F) as F2. clear F.
  destruct (IH F2) as [[E N]|(m & E & I & L)]; cbn [map fmax fold_right]; fold (fmax (map Some row)); rewrite E.
  - destruct a as [z| |]; cbn [fgt] in *; [right|left|contradiction].
    + exists z. split; [reflexivity|]. split; [left; reflexivity|].
      intros y [Ey|Iy]; [injection Ey as ->; lra|]. rewrite Forall_forall in N. discriminate (N _ Iy).
    + split; [reflexivity|constructor; [reflexivity|exact N]].
  - right. destruct a as [z| |]; cbn [fgt] in *; [|exists m|contradiction].
    + destruct (Rlt_dec m z) as [G|G]; [exists z|exists m]; (split; [reflexivity|]); split.
      * left; reflexivity.
      * intros y [Ey|Iy]; [injection Ey as ->; lra|]. specialize (L _ Iy). lra.
      * right; exact I.
      * intros y [Ey|Iy]; [injection Ey as ->; lra|]. exact (L _ Iy).
    + split; [reflexivity|]. split; [right; exact I|]. intros y [Ey|Iy]; [discriminate|exact (L _ Iy)].
Qed.
Lemma entry_term m e : bounded_entry e -> Rabs m <= 10000000000000000000000000000000000000 ->
  (forall z, e = Fin z -> z <= m) ->
  exists v, exp32 A (sub32 A (Some e) (Some (Fin m))) = Some (Fin v) /\ 0 <= v <= 1 /\
    Rabs (v - exp_ext e * exp (- m)) <= 8 * eps /\ (e = Fin m -> v = 1).
Proof using SPA.
  intros B Hm L. destruct e as [z| |]; [| |destruct B].
  - destruct (shift_close z m B Hm (L z eq_refl)) as (d & -> & Hd & C & Z).
    specialize (L z eq_refl). destruct (exp_term d (m - z) Hd ltac:(lra)) as (v & E & Hv & Cv & O).
    { replace (d - - (m - z)) with (d - (z - m)) by ring. exact C. }
    exists v. split; [exact E|]. split; [exact Hv|]. split.
    + cbn [exp_ext]. rewrite <- exp_plus. replace (z + - m) with (- (m - z)) by ring. exact Cv.
    + intros Q. injection Q as ->. apply O, Z, eq_refl.
  - exists 0. split; [reflexivity|]. split; [lra|]. split; [|discriminate]. cbn [exp_ext].
    rewrite Rmult_0_l. unfold Rminus. rewrite Rplus_opp_r, Rabs_R0. lra.
Qed.
Definition val (a : fl) : R := match a with Some (Fin e) => e | _ => 0 end.
Lemma terms_sum m row : Forall bounded_entry row -> Rabs m <= 10000000000000000000000000000000000000 ->
  (forall z, In (Fin z) row -> z <= m) ->
  let es := map (exp32 A) (map (fun z => sub32 A z (Some (Fin m))) (map Some row)) in
  Forall (fun a => exists e, a = Some (Fin e) /\ 0 <= e <= 1) es /\
  Rabs (rsum (map val es) - rsum (map exp_ext row) * exp (- m)) <= INR (length row) * (8 * eps) /\
  (In (Fin m) row -> In (Some (Fin 1)) es).
Proof using SPA.
  intros F Hm. induction row as [|a row IH]; intros L es.
  - split; [constructor|]. split; [|intros []]. cbn. rewrite Rmult_0_l, Rmult_0_l. unfold Rminus.
    rewrite Rplus_opp_r, Rabs_R0. lra.
  - pose proof (Forall_inv F) as Fa. pose proof (Forall_inv_tail F) as F2.
    destruct (IH F2 (fun z Iz => L z (or_intror Iz))) as (G1 & G2 & G3).
    destruct (entry_term m a Fa Hm (fun z E => L z (or_introl E))) as (v & E & Hv & C & O).
    unfold es. cbn [map]. rewrite E. split; [|split].
    + constructor; [exists v; split; [reflexivity|exact Hv]|exact G1].
    + cbn [map rsum val]. cbn [length]. rewrite S_INR.
      match goal with |- Rabs (v + ?X - (exp_ext a + ?Y) * exp (- m)) <= _ =>
        replace (v + X - (exp_ext a + Y) * exp (- m)) with ((X - Y * exp (- m)) + (v - exp_ext a * exp (- m))) by ring end.
      apply Rle_trans with (1 := Rabs_triang _ _). lra.
    + intros [Ea|I]; [left; rewrite (O Ea); reflexivity|right; exact (G3 I)].
Qed.
Lemma exp_ext_nonneg row : 0 <= rsum (map exp_ext row).
Proof using Type.
  clear. induction row as [|a row IH]; cbn; [lra|]. destruct a as [z| |]; cbn [exp_ext]; [pose proof (exp_pos z)| |]; lra.
Qed.
Lemma exp_ext_in m row : In (Fin m) row -> exp m <= rsum (map exp_ext row).
Proof using Type.
  clear. induction row as [|a row IH]; intros I; [destruct I|]. cbn [map rsum]. destruct I as [-> |I].
  - cbn [exp_ext]. pose proof (exp_ext_nonneg row). lra.
  - specialize (IH I). destruct a as [z| |]; cbn [exp_ext]; [pose proof (exp_pos z)| |]; lra.
Qed.

(** The log-likelihood of one answer. *)
Theorem row_close row k zk D :
  Forall bounded_entry row -> nth_error row k = Some (Fin zk) -> (forall z, In (Fin z) row -> z - zk <= D) ->
  (Z.of_nat (length row) <= 2 ^ 24)%Z ->
  exists v x, log_softmax32 A (map Some row) k = Some (Fin v) /\ log_softmax_at row k = Some (Fin x) /\ v <= 0 /\
    Rabs (v - x) <= (3 * D + 16 * (INR (length row) * INR (length row))) * eps.
Proof using SPA.
  intros F Hk HD Hn. pose proof tiny as T0. pose proof tiny_pos as T1.
  pose proof (nth_error_In _ _ Hk) as Ik.
  destruct (fmax_row row F) as [[_ N]|(m & Em & Im & L)].
  { rewrite Forall_forall in N. discriminate (N _ Ik). }
  assert (Bm : bounded_entry (Fin m)) by (rewrite Forall_forall in F; exact (F _ Im)). cbn [bounded_entry] in Bm.
  assert (Bk : bounded_entry (Fin zk)) by (rewrite Forall_forall in F; exact (F _ Ik)). cbn [bounded_entry] in Bk.
  pose proof (HD m Im) as Dm. pose proof (L zk Ik) as Lk.
  set (n := INR (length row)) in *.
  assert (n1 : 1 <= n).
  { unfold n. change 1 with (INR 1). apply le_INR. destruct row; [destruct Ik|cbn; lia]. }
  assert (nU : n <= 16777216).
  { unfold n. rewrite INR_IZR_INZ. apply IZR_le. change (2 ^ 24)%Z with 16777216%Z in Hn. exact Hn. }
  assert (nn : n <= n * n) by (rewrite <- (Rmult_1_r n) at 1; apply Rmult_le_compat_l; lra).
  destruct (terms_sum m row F Bm L) as (G1 & G2 & G3).
  set (es := map (exp32 A) (map (fun z => sub32 A z (Some (Fin m))) (map Some row))) in *.
  assert (Les : length es = length row) by (unfold es; rewrite !map_length; reflexivity).
  destruct (sum_close es 0 0 G1 single_zero ltac:(cbn; lra) ltac:(rewrite Les; exact Hn)) as (s & Es & _ & Hs & H1 & Cs).
  specialize (H1 (G3 Im)). rewrite Les in Hs, Cs. cbn [Nat.add] in Hs, Cs. fold n in Hs, Cs. fold val in Cs.
  change (fun a : fl => match a with Some (Fin e) => e | _ => 0 end) with val in Cs.
  set (Se := rsum (map val es)) in *. set (X := rsum (map exp_ext row)) in *.
  assert (PX : exp m <= X) by (apply exp_ext_in; exact Im).
  assert (X1 : 1 <= X * exp (- m)).
  { replace 1 with (exp m * exp (- m)) by (rewrite <- exp_plus, Rplus_opp_r; apply exp_0).
    apply Rmult_le_compat_r; [apply Rlt_le, exp_pos|exact PX]. }
  assert (C1 : Rabs (s - X * exp (- m)) <= 10 * (n * n) * eps).
  { replace (s - X * exp (- m)) with ((s - (0 + Se)) + (Se - X * exp (- m))) by ring.
    apply Rle_trans with (1 := Rabs_triang _ _). fold n in G2.
    apply Rle_trans with (n * ((n + 1) * eps) + n * (8 * eps)); [lra|]. lra. }
  pose proof (ln_close s (X * exp (- m)) H1 X1) as C2.
  assert (EX : ln (X * exp (- m)) = ln X - m).
  { rewrite ln_mult by (try apply exp_pos; pose proof (exp_pos m); lra). rewrite ln_exp. ring. }
  assert (Ls : 0 <= ln s <= n).
  { split; [|pose proof (ln_below s ltac:(lra)); lra]. rewrite <- ln_1. destruct H1 as [H1|<-]; [|lra].
    apply Rlt_le, ln_increasing; lra. }
  pose proof (sp_log A SPA s ltac:(lra)) as C3. rewrite (Rabs_pos_eq (ln s)) in C3 by lra.
  set (l := loga A s) in *.
  destruct (shift_close zk m Bk Bm Lk) as (d & Ed & Hd & Cd & _).
  assert (Out : log_softmax32 A (map Some row) k = sub32 A (Some (Fin d)) (Some (Fin l))).
  { unfold log_softmax32. rewrite Em. fold es. unfold sum32. rewrite Es. f_equal.
    - rewrite <- Ed. apply nth_error_nth. rewrite map_map. rewrite nth_error_map, Hk. reflexivity.
    - unfold log32. destruct (Rlt_dec 0 s); [reflexivity|lra]. }
  assert (Exact : log_softmax_at row k = Some (Fin (zk - ln X))).
  { unfold log_softmax_at.
    assert (P1 : existsb is_pinf row = false).
    { apply Bool.not_true_is_false. intros Q. apply existsb_exists in Q as (e & Ie & Qe). rewrite Forall_forall in F.
      specialize (F _ Ie). destruct e; try discriminate. destruct F. }
    assert (P2 : forallb is_ninf row = false).
    { apply Bool.not_true_is_false. intros Q. rewrite forallb_forall in Q. discriminate (Q _ Ik). }
    rewrite P1, P2. cbn [orb]. rewrite (nth_error_nth _ _ NInf Hk). reflexivity. }
  rewrite Out, Exact.
  apply abs_between in Cd as Cd', C3 as C3', C2 as C2', C1 as C1', Bk, Bm.
  assert (Bl : 0 <= l <= 2 * n) by lra.
  assert (Bd : - (2 * (m - zk)) - 1 <= d) by lra.
  assert (T : Rabs (d + - l) < top).
  { apply small_top with 50000000000000000000000000000000000000; [apply Rabs_le|]; lra. }
  unfold sub32, fsub. cbn [fneg fadd]. rewrite round_fin by exact T.
  pose proof (sp_nearest A SPA _ T) as N. exists (round A (d + - l)), (zk - ln X).
  split; [reflexivity|]. split; [reflexivity|]. split; [apply (nearest_le _ _ _ N single_zero); lra|].
  pose proof (nearest_error _ _ T N) as Er. rewrite (Rabs_left1 (d + - l)) in Er by lra. apply abs_between in Er.
  rewrite EX in C2'. apply Rabs_le.
  assert (Sm : - (10 * (n * n) * eps) <= ln s - (ln X - m) <= 10 * (n * n) * eps).
  { rewrite EX in C2. pose proof (Rle_trans _ _ _ C2 C1) as C4. apply abs_between in C4. exact C4. }
  unfold Rdiv in *. lra.
Qed.
End Single.
