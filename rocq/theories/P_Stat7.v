(** Lemmas: the InterModel Vigorish. *)
From Verif Require Import Base BaseFacts RBase RFacts M_Logit M_Mono M_Lik M_Est M_Stat S_Stat P_Stat3.
Local Open Scope R_scope.

Lemma lo_half : 1 / 2 < imv_lo. Proof. unfold imv_lo. lra. Qed.
Lemma lo_hi : imv_lo < imv_hi. Proof. unfold imv_lo, imv_hi. lra. Qed.
Lemma hi_one : imv_hi < 1. Proof. unfold imv_hi. lra. Qed.
Lemma clamp_range x : imv_lo <= clamp imv_lo imv_hi x <= imv_hi.
Proof. pose proof lo_hi. unfold clamp, Rmin, Rmax. destruct (Rle_dec x imv_lo); destruct (Rle_dec _ imv_hi); lra. Qed.
Lemma clamp_mono x y : x <= y -> clamp imv_lo imv_hi x <= clamp imv_lo imv_hi y.
Proof. intros H. unfold clamp. apply Rle_min_compat_r, Rle_max_compat_r. exact H. Qed.
Lemma clamp_hi x : imv_hi <= x -> clamp imv_lo imv_hi x = imv_hi.
Proof. pose proof lo_hi. intros. unfold clamp, Rmax. destruct (Rle_dec x imv_lo); unfold Rmin; destruct (Rle_dec _ imv_hi); lra. Qed.
Lemma clamp_cases x : (clamp imv_lo imv_hi x = imv_hi) \/ x <= clamp imv_lo imv_hi x.
Proof. pose proof lo_hi. unfold clamp, Rmax. destruct (Rle_dec x imv_lo); unfold Rmin; destruct (Rle_dec _ imv_hi); lra. Qed.
Definition slope (v : R) : R := ln v - ln (1 - v).
Lemma slope_pos v : 1 / 2 < v < 1 -> 0 < slope v.
Proof. intros H. unfold slope. assert (ln (1 - v) < ln v) by (apply ln_increasing; lra). lra. Qed.
Lemma slope_mono v w : 0 < v -> v <= w -> w < 1 -> slope v <= slope w.
Proof.
  intros H1 H2 H3. unfold slope. assert (ln v <= ln w) by (destruct (Req_EM_T v w) as [->|]; [lra|left; apply ln_increasing; lra]).
  assert (ln (1 - w) <= ln (1 - v)) by (destruct (Req_EM_T v w) as [->|]; [lra|left; apply ln_increasing; lra]). lra.
Qed.
(** Convexity: the coin's expected log-likelihood lies above its tangents. *)
Lemma coin_tangent a b : 0 < a < 1 -> 0 < b < 1 -> coin b + slope b * (a - b) <= coin a.
Proof.
  intros A B. unfold coin, slope.
  assert (Q1 : 0 < b / a) by (apply Rdiv_lt_0_compat; lra). assert (Q2 : 0 < (1 - b) / (1 - a)) by (apply Rdiv_lt_0_compat; lra).
  pose proof (ln_le_sub1 _ Q1) as K1. pose proof (ln_le_sub1 _ Q2) as K2. rewrite ln_quot in K1, K2 by lra.
  apply (Rmult_le_compat_l a) in K1; [|lra]. apply (Rmult_le_compat_l (1 - a)) in K2; [|lra].
  replace (a * (b / a - 1)) with (b - a) in K1 by (field; lra). replace ((1 - a) * ((1 - b) / (1 - a) - 1)) with (a - b) in K2 by (field; lra). lra.
Qed.
Lemma step_fin l v : imv_lo <= v <= imv_hi ->
  imv_step (Some (Fin l)) (Some v) = (Some (clamp imv_lo imv_hi (v + - (coin v - l) / slope v)), Some (Fin (Rabs (- (coin v - l) / slope v)))).
Proof.
  intros H. pose proof lo_half. pose proof hi_one. cbn [imv_step]. fold (slope v). assert (0 < slope v) by (apply slope_pos; lra).
  destruct (Req_EM_T (slope v) 0); [lra|reflexivity].
Qed.
(** ** One entry *)
Definition right_of_root (e : ext) (v : R) : Prop :=
  imv_lo <= v <= imv_hi /\ match e with Fin l => l <= coin v \/ v = imv_hi | NInf => v = imv_lo | PInf => v = imv_hi end.
Lemma step_right e v : imv_lo <= v <= imv_hi -> exists w d, imv_step (Some e) (Some v) = (Some w, d) /\ right_of_root e w.
Proof.
  intros H. pose proof lo_half. pose proof hi_one. pose proof lo_hi. destruct e as [l| |].
  - rewrite step_fin by exact H. set (x := v + - (coin v - l) / slope v). eexists. eexists. split; [reflexivity|]. split; [apply clamp_range|].
    assert (S : 0 < slope v) by (apply slope_pos; lra). destruct (clamp_cases x) as [C|C]; [right; exact C|left].
    pose proof (clamp_range x) as R. set (y := clamp imv_lo imv_hi x) in *.
    pose proof (coin_tangent y v ltac:(lra) ltac:(lra)) as T.
    assert (E : l = coin v + slope v * (x - v)) by (unfold x; field; lra). assert (slope v * (x - v) <= slope v * (y - v)) by (apply Rmult_le_compat_l; lra). lra.
  - cbn [imv_step]. eexists. eexists. split; [reflexivity|]. split; [lra|reflexivity].
  - cbn [imv_step]. eexists. eexists. split; [reflexivity|]. split; [lra|reflexivity].
Qed.
(** Newton's step is monotone in the target and, right of the root, in the weight. *)
Lemma step_target e1 e2 v w1 w2 d1 d2 : imv_lo <= v <= imv_hi -> ext_le e1 e2 ->
  imv_step (Some e1) (Some v) = (Some w1, d1) -> imv_step (Some e2) (Some v) = (Some w2, d2) -> w1 <= w2.
Proof.
  intros H O S1 S2. pose proof lo_half. pose proof hi_one. pose proof lo_hi.
  destruct e1 as [l1| |], e2 as [l2| |]; cbn [ext_le] in O; try contradiction.
  - rewrite step_fin in S1, S2 by exact H. injection S1 as <- _. injection S2 as <- _. apply clamp_mono. apply Rplus_le_compat_l.
    assert (0 < slope v) by (apply slope_pos; lra). unfold Rdiv. apply Rmult_le_compat_r; [left; apply Rinv_0_lt_compat; assumption|lra].
  - rewrite step_fin in S1 by exact H. injection S1 as <- _. cbn in S2. injection S2 as <- _. apply clamp_range.
  - cbn in S1. injection S1 as <- _. rewrite step_fin in S2 by exact H. injection S2 as <- _. apply clamp_range.
  - cbn in S1, S2. injection S1 as <- _. injection S2 as <- _. lra.
  - cbn in S1, S2. injection S1 as <- _. injection S2 as <- _. lra.
  - cbn in S1, S2. injection S1 as <- _. injection S2 as <- _. lra.
Qed.
Lemma step_both e1 e2 v1 v2 w1 w2 d1 d2 : right_of_root e1 v1 -> right_of_root e2 v2 -> v1 <= v2 -> ext_le e1 e2 ->
  imv_step (Some e1) (Some v1) = (Some w1, d1) -> imv_step (Some e2) (Some v2) = (Some w2, d2) -> w1 <= w2.
Proof.
  intros [R1 I1] [R2 I2] V O S1 S2. pose proof lo_half. pose proof hi_one. pose proof lo_hi.
  destruct (step_right e1 v2 R2) as (w & d & E & _).
  apply Rle_trans with w; [|eapply step_target; [exact R2|exact O|exact E|exact S2]]. clear S2 w2 d2.
  destruct e1 as [l| |]; [|cbn in E, S1; injection E as <- _; injection S1 as <- _; lra..].
  rewrite step_fin in S1 by exact R1. rewrite step_fin in E by exact R2. injection S1 as <- _. injection E as <- _.
  destruct I1 as [G| ->]; [|replace v2 with imv_hi by lra; lra].
  assert (P1 : 0 < slope v1) by (apply slope_pos; lra). assert (P2 : 0 < slope v2) by (apply slope_pos; lra).
  assert (M : slope v1 <= slope v2) by (apply slope_mono; lra).
  apply clamp_mono. set (x1 := v1 + - (coin v1 - l) / slope v1).
  assert (E1 : slope v1 * (x1 - v1) = l - coin v1) by (unfold x1; field; lra).
  assert (X : x1 - v1 <= 0) by nra.
  pose proof (coin_tangent v1 v2 ltac:(lra) ltac:(lra)) as T.
  assert (slope v2 * (x1 - v1) <= slope v1 * (x1 - v1)) by nra.
  apply Rmult_le_reg_l with (slope v2); [exact P2|]. rewrite Rmult_plus_distr_l. replace (slope v2 * (- (coin v2 - l) / slope v2)) with (l - coin v2) by (field; lra). nra.
Qed.

(** ** The loop *)
Definition weight_ok (w : option R) : Prop := match w with Some v => imv_lo <= v <= imv_hi | None => True end.
Lemma step_ok e w : weight_ok w -> weight_ok (fst (imv_step e w)) /\ (fst (imv_step e w) = None <-> e = None \/ w = None).
Proof.
  intros H. destruct w as [v|], e as [[l| |]|].
  all: cbn [imv_step fst weight_ok].
  all: split; [try apply clamp_range; try exact I; pose proof lo_hi; try lra|].
  all: split; intros; try discriminate; auto.
  all: match goal with H : _ \/ _ |- _ => destruct H; discriminate end.
Qed.
Lemma loop_ok n es ws : length ws = length es -> Forall weight_ok ws ->
  Forall weight_ok (imv_loop n es ws) /\ length (imv_loop n es ws) = length es.
Proof.
  revert ws; induction n as [|n IH]; intros ws L H; [split; assumption|]. cbn [imv_loop].
  assert (L' : length (map fst (zip_with imv_step es ws)) = length es) by (rewrite map_length; rewrite zip_with_length; lia).
  assert (F : Forall weight_ok (map fst (zip_with imv_step es ws))).
  { clear -H. revert es; induction H as [|w ws Hw _ IH]; intros [|e es]; cbn [zip_with map]; constructor; [apply step_ok; exact Hw|apply IH]. }
  destruct (fltb _ _); [split; assumption|apply IH; assumption].
Qed.
Lemma loop_nan n es ws k : length ws = length es -> (nth_error (imv_loop n es ws) k = Some None <-> nth_error ws k = Some None \/ ((0 < n)%nat /\ nth_error es k = Some None)).
Proof.
  revert ws; induction n as [|n IH]; intros ws L; [cbn [imv_loop]; split; [auto|intros [|[]]; [assumption|lia]]|].
  assert (L' : length (map fst (zip_with imv_step es ws)) = length es) by (rewrite map_length; rewrite zip_with_length; lia).
  assert (Z : nth_error (map fst (zip_with imv_step es ws)) k = Some None <-> nth_error ws k = Some None \/ nth_error es k = Some None).
  { rewrite nth_error_map, nth_error_zip_with. destruct (nth_error es k) as [e|] eqn:Ee, (nth_error ws k) as [w|] eqn:Ew; cbn [option_map].
    - assert (S : fst (imv_step e w) = None <-> e = None \/ w = None).
      { destruct w as [v|], e as [[l| |]|]; cbn [imv_step fst]; split; intros; try discriminate; auto. all: match goal with H : _ \/ _ |- _ => destruct H; discriminate end. }
      split; [intros E; injection E as E; apply S in E; destruct E; subst; auto|]. intros E. f_equal. apply S. destruct E as [E|E]; injection E as ->; auto.
    - exfalso. apply nth_error_None in Ew. assert (k < length es)%nat by (apply nth_error_Some; congruence). lia.
    - exfalso. apply nth_error_None in Ee. assert (k < length ws)%nat by (apply nth_error_Some; congruence). lia.
    - intuition discriminate. }
  cbn [imv_loop]. destruct (fltb _ _).
  - rewrite Z. intuition lia.
  - rewrite IH, Z by exact L'. intuition lia.
Qed.
(** Two finite-or-infinite targets: the larger target keeps the larger weight. *)
Lemma loop_order n e1 e2 v1 v2 : ext_le e1 e2 -> right_of_root e1 v1 -> right_of_root e2 v2 -> v1 <= v2 ->
  exists w1 w2, imv_loop n [Some e1; Some e2] [Some v1; Some v2] = [Some w1; Some w2] /\ right_of_root e1 w1 /\ right_of_root e2 w2 /\ w1 <= w2.
Proof.
  intros O. revert v1 v2; induction n as [|n IH]; intros v1 v2 R1 R2 V; [exists v1, v2; auto|].
  destruct (step_right e1 v1 (proj1 R1)) as (w1 & d1 & E1 & Q1). destruct (step_right e2 v2 (proj1 R2)) as (w2 & d2 & E2 & Q2).
  assert (W : w1 <= w2) by exact (step_both _ _ _ _ _ _ _ _ R1 R2 V O E1 E2).
  cbn [imv_loop zip_with]. rewrite E1, E2. cbn [map fst snd]. destruct (fltb _ _); [exists w1, w2; auto|apply IH; assumption].
Qed.
Lemma newton_order n e1 e2 : ext_le e1 e2 -> exists w1 w2, imv_newton_raphson n [Some e1; Some e2] = [Some w1; Some w2] /\
  imv_lo <= w1 <= imv_hi /\ imv_lo <= w2 <= imv_hi /\ w1 <= w2 /\ ((0 < n)%nat -> right_of_root e1 w1 /\ right_of_root e2 w2).
Proof.
  intros O. unfold imv_newton_raphson. cbn [map]. assert (S : imv_lo <= 3 / 4 <= imv_hi) by (unfold imv_lo, imv_hi; lra).
  destruct n as [|n]; [exists (3 / 4), (3 / 4); repeat split; try lra; lia|].
  destruct (step_right e1 (3 / 4) S) as (w1 & d1 & E1 & Q1). destruct (step_right e2 (3 / 4) S) as (w2 & d2 & E2 & Q2).
  assert (W : w1 <= w2) by (eapply step_target; [exact S|exact O|exact E1|exact E2]).
  cbn [imv_loop zip_with]. rewrite E1, E2. cbn [map fst snd]. destruct (fltb _ _).
  - exists w1, w2. split; [reflexivity|]. split; [apply Q1|]. split; [apply Q2|]. auto.
  - destruct (loop_order n e1 e2 w1 w2 O Q1 Q2 W) as (y1 & y2 & E & A & B & C). exists y1, y2. split; [exact E|]. split; [apply A|]. split; [apply B|]. auto.
Qed.
(** The same with the entries in the other order. *)
Lemma loop_order_rev n e1 e2 v1 v2 : ext_le e1 e2 -> right_of_root e1 v1 -> right_of_root e2 v2 -> v1 <= v2 ->
  exists w1 w2, imv_loop n [Some e2; Some e1] [Some v2; Some v1] = [Some w2; Some w1] /\ right_of_root e1 w1 /\ right_of_root e2 w2 /\ w1 <= w2.
Proof.
  intros O. revert v1 v2; induction n as [|n IH]; intros v1 v2 R1 R2 V; [exists v1, v2; auto|].
  destruct (step_right e1 v1 (proj1 R1)) as (w1 & d1 & E1 & Q1). destruct (step_right e2 v2 (proj1 R2)) as (w2 & d2 & E2 & Q2).
  assert (W : w1 <= w2) by exact (step_both _ _ _ _ _ _ _ _ R1 R2 V O E1 E2).
  cbn [imv_loop zip_with]. rewrite E1, E2. cbn [map fst snd]. destruct (fltb _ _); [exists w1, w2; auto|apply IH; assumption].
Qed.
Lemma newton_order_rev n e1 e2 : ext_le e1 e2 -> exists w1 w2, imv_newton_raphson n [Some e2; Some e1] = [Some w2; Some w1] /\
  imv_lo <= w1 <= imv_hi /\ imv_lo <= w2 <= imv_hi /\ w1 <= w2 /\ ((0 < n)%nat -> right_of_root e1 w1 /\ right_of_root e2 w2).
Proof.
  intros O. unfold imv_newton_raphson. cbn [map]. assert (S : imv_lo <= 3 / 4 <= imv_hi) by (unfold imv_lo, imv_hi; lra).
  destruct n as [|n]; [exists (3 / 4), (3 / 4); repeat split; try lra; lia|].
  destruct (step_right e1 (3 / 4) S) as (w1 & d1 & E1 & Q1). destruct (step_right e2 (3 / 4) S) as (w2 & d2 & E2 & Q2).
  assert (W : w1 <= w2) by (eapply step_target; [exact S|exact O|exact E1|exact E2]).
  cbn [imv_loop zip_with]. rewrite E1, E2. cbn [map fst snd]. destruct (fltb _ _).
  - exists w1, w2. split; [reflexivity|]. split; [apply Q1|]. split; [apply Q2|]. auto.
  - destruct (loop_order_rev n e1 e2 w1 w2 O Q1 Q2 W) as (y1 & y2 & E & A & B & C). exists y1, y2. split; [exact E|]. split; [apply A|]. split; [apply B|]. auto.
Qed.
Lemma imv_pair n e1 e2 : exists w1 w2, imv_newton_raphson n [Some e1; Some e2] = [Some w1; Some w2] /\ imv n (Some e1) (Some e2) = Some ((w2 - w1) / w1) /\ 0 < w1 /\
  (ext_le e1 e2 -> w1 <= w2) /\ (ext_le e2 e1 -> w2 <= w1).
Proof.
  pose proof lo_half as Lh.
  assert (T : ext_le e1 e2 \/ ext_le e2 e1) by (destruct e1 as [x| |], e2 as [y| |]; cbn; auto; apply Rle_or_lt || (destruct (Rle_dec x y); [left; assumption|right; lra])).
  assert (X : exists w1 w2, imv_newton_raphson n [Some e1; Some e2] = [Some w1; Some w2] /\ imv_lo <= w1).
  { destruct T as [T|T]; [destruct (newton_order n e1 e2 T) as (w1 & w2 & E & A & _)|destruct (newton_order_rev n e2 e1 T) as (w2 & w1 & E & _ & A & _)]; exists w1, w2; split; [exact E|lra|exact E|lra]. }
  destruct X as (w1 & w2 & E & A). exists w1, w2. split; [exact E|]. split; [unfold imv; rewrite E; reflexivity|]. split; [lra|]. split; intros O.
  - destruct (newton_order n e1 e2 O) as (y1 & y2 & E' & _ & _ & B & _). rewrite E in E'. injection E' as -> ->. exact B.
  - destruct (newton_order_rev n e2 e1 O) as (y2 & y1 & E' & _ & _ & B & _). rewrite E in E'. injection E' as -> ->. exact B.
Qed.
