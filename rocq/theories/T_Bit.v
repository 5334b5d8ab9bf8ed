(** Bit scores as the documented integral of the absolute entropy derivatives. *)
From Coq Require Import Sorted.
From Verif Require Import Base BaseFacts RBase RFacts P_Pop6 M_Est M_Stat M_Grid S_Grid P_Grid1 P_Grid5 S_Mass P_Mass P_Iw3 S_Bit P_Bit1 P_Bit2 P_Bit3 T_Grid.
Import M_Est List.
Local Open Scope R_scope.

(** ** C118 *)
Lemma start_only gp lo hi s x col pts : x <= s -> StronglySorted Rlt pts -> (forall y, In y pts <-> y <= Rmax x s /\ grid_value gp lo hi s col y) -> pts = [s].
Proof.
  intros Hx HS HI. rewrite Rmax_right in HI by exact Hx. assert (A : forall y, In y pts <-> y = s).
  { intro y. rewrite HI. split; [intros [H1 H2]; apply value_above in H2; lra|]. intros ->. split; [lra|now left]. }
  destruct pts as [|a [|b l]]; [destruct (proj2 (A s) eq_refl)|f_equal; apply A; now left|]. exfalso. inversion HS as [|? ? _ HF]; subst. apply Forall_inv in HF.
  pose proof (proj1 (A a) ltac:(now left)). pose proof (proj1 (A b) ltac:(right; now left)). lra.
Qed.
(** Never above the integral, for every grid size, range, start and batch. *)
Theorem C118_below ent gp medians start bounds thetas j i x n h :
  (1 <= gp)%nat -> (j < length start)%nat -> nth_error (column 0 j thetas) i = Some x ->
  smooth_on n (fun v => ent (upd j v medians)) h (nth j start 0) (Rmax x (nth j start 0)) ->
  exists b v, nth_error (nth j (bit_scores ent gp medians start bounds thetas) []) i = Some b /\
    absolute_integral n h (nth j start 0) (Rmax x (nth j start 0)) v /\ b <= v.
Proof.
  intros G J X S. destruct (C42_score ent gp medians start bounds thetas j i x G J X) as (pts & E & HS & HI). set (s := nth j start 0) in *. set (f := fun v => ent (upd j v medians)) in *.
  assert (Hsx : s <= Rmax x s) by apply Rmax_r. destruct (integral_exists n f h s (Rmax x s) Hsx S) as (Q & HQ). exists (variation f pts), (Q (Rmax x s) - Q s).
  split; [exact E|]. split; [exists Q; split; [apply HQ; lra|reflexivity]|].
  assert (Sh : exists l, pts = s :: l /\ last l s = Rmax x s).
  { destruct (Rle_dec x s) as [Hx|Hx].
    - exists []. rewrite (start_only _ _ _ _ _ _ _ Hx HS HI). split; [reflexivity|]. cbn. symmetry. now apply Rmax_right.
    - eapply points_shape; [exact Hsx| |exact HS|exact HI]. rewrite Rmax_left by lra. eapply nth_error_In. exact X. }
  destruct Sh as (l & -> & El). rewrite <- El. apply chain_below with (n := n) (h := h) (lo := s) (hi := Rmax x s); [exact S| |exact HS|].
  - intros y Hy. apply (antiderivative_at (fun u => sumn n (fun k => Rabs (h k u))) Q s (Rmax x s)); [apply HQ; lra|exact Hy].
  - eapply point_range. exact HI.
Qed.
Print Assumptions C118_below.
(** Within any tolerance of it once the grid is fine enough, when start and score lie within the range of the grid; how
    fine depends neither on the start nor on the batch. *)
Theorem C118_close ent medians j n h lo hi eps :
  lo <= hi -> smooth_on n (fun v => ent (upd j v medians)) h lo hi -> 0 < eps ->
  exists G, forall gp start bounds thetas i x,
    (G <= gp)%nat -> (j < length start)%nat -> nth j bounds (0, 0) = (lo, hi) -> nth_error (column 0 j thetas) i = Some x ->
    lo <= nth j start 0 <= x -> x <= hi ->
    exists b v, nth_error (nth j (bit_scores ent gp medians start bounds thetas) []) i = Some b /\
      absolute_integral n h (nth j start 0) x v /\ b <= v <= b + eps.
Proof.
  intros Hlh S He. set (f := fun v => ent (upd j v medians)) in *. pose proof (pos_INR n) as Hn. set (eta := eps / (INR n * (hi - lo) + 1)).
  assert (D0 : 0 < INR n * (hi - lo) + 1) by (assert (0 <= INR n * (hi - lo)) by (apply Rmult_le_pos; lra); lra). assert (He' : 0 < eta) by (apply Rdiv_lt_0_compat; assumption).
  destruct (uniform n h lo hi eta) as (dl & Hdl & HU); [intros k Hk v Hv; now apply S|exact He'|].
  destruct (archimed ((hi - lo) / dl)) as [A _]. set (z := up ((hi - lo) / dl)) in *. assert (Hq : 0 <= (hi - lo) / dl) by (apply Rmult_le_pos; [lra|left; now apply Rinv_0_lt_compat]).
  assert (Hz : (0 < z)%Z) by (apply lt_IZR; cbn; lra).
  exists (Z.to_nat z + 2)%nat. intros gp start bounds thetas i x G J B X [Hs1 Hs2] Hx.
  destruct (C42_score ent gp medians start bounds thetas j i x ltac:(lia) J X) as (pts & E & HS & HI). fold f in E. rewrite B in HI. cbn [fst snd] in HI. set (s := nth j start 0) in *. rewrite Rmax_left in HI by exact Hs2.
  assert (Ix : In x (column 0 j thetas)) by (eapply nth_error_In; exact X).
  destruct (integral_exists n f h lo hi Hlh S) as (Q & HQ). exists (variation f pts), (Q x - Q s). split; [exact E|]. split; [exists Q; split; [apply HQ; lra|reflexivity]|].
  assert (HD : forall y, lo <= y <= hi -> derivable_pt_lim Q y (sumn n (fun k => Rabs (h k y)))).
  { intros y Hy. apply (antiderivative_at (fun u => sumn n (fun k => Rabs (h k u))) Q lo hi); [apply HQ; lra|exact Hy]. }
  assert (F : Forall (fun y => lo <= y <= hi) pts).
  { apply Forall_forall. intros y Hy. pose proof (point_range _ _ _ _ _ _ _ HI) as PR. rewrite Forall_forall in PR. specialize (PR y Hy). cbn beta in PR. lra. }
  assert (W : width gp lo hi < dl).
  { unfold width. assert (Z1 : IZR z <= INR (gp - 1)). { replace (IZR z) with (INR (Z.to_nat z)) by (rewrite INR_IZR_INZ, Z2Nat.id by lia; reflexivity). apply le_INR. lia. }
    assert (0 < INR (gp - 1)) by (apply lt_0_INR; lia). apply Rmult_lt_reg_r with (INR (gp - 1)); [assumption|]. unfold Rdiv. rewrite Rmult_assoc, Rinv_l, Rmult_1_r by lra.
    replace (hi - lo) with (dl * ((hi - lo) / dl)) by (field; lra). apply Rmult_lt_compat_l; lra. }
  assert (Fine : steps (fun a b => b - a <= width gp lo hi) pts).
  { apply (points_fine gp lo hi s x (column 0 j thetas) pts); try assumption. lia. }
  assert (Sh : exists l, pts = s :: l /\ last l s = x) by (eapply points_shape; [exact Hs2|exact Ix|exact HS|exact HI]).
  destruct Sh as (l & -> & El). split.
  - rewrite <- El. apply chain_below with (n := n) (h := h) (lo := lo) (hi := hi); assumption.
  - assert (C : Q (last l s) - Q s <= variation f (s :: l) + INR n * eta * (last l s - s)).
    { apply chain_above with (h := h) (lo := lo) (hi := hi); try assumption. apply steps_impl with (fun a b => b - a <= width gp lo hi); [|exact Fine].
      intros a b Ia Ib Hab k y w Hk Hy Hw. rewrite Forall_forall in F. pose proof (F a Ia). pose proof (F b Ib). left. apply HU; [exact Hk|lra|lra|]. apply Rabs_def1; lra. }
    rewrite El in C. apply Rle_trans with (1 := C). apply Rplus_le_compat_l. apply Rle_trans with (eta * (INR n * (hi - lo) + 1)); [|right; unfold eta; field; lra].
    replace (INR n * eta * (x - s)) with (eta * (INR n * (x - s))) by ring. apply Rmult_le_compat_l; [lra|]. assert (INR n * (x - s) <= INR n * (hi - lo)) by (apply Rmult_le_compat_l; lra). lra.
Qed.
Print Assumptions C118_close.
(** What [transform] returns without population scores: the range is [-7, 7], scores and start are taken times the
    direction of the variable and the other variables are 0. *)
Theorem C118_transform ent mult j n h eps :
  (j < length mult)%nat -> smooth_on n (fun v => ent (zip_with Rmult (upd j v (repeat 0 (length mult))) mult)) h (-7) 7 -> 0 < eps ->
  exists G, forall gp start thetas i theta,
    (G <= gp)%nat -> length start = length mult -> nth_error thetas i = Some theta -> length theta = length mult ->
    let s := nth j start 0 * nth j mult 0 in let x := nth j theta 0 * nth j mult 0 in
    -7 <= s <= x -> x <= 7 ->
    exists b v, nth_error (nth j (bit_transform ent gp mult start thetas) []) i = Some b /\ absolute_integral n h s x v /\ b <= v <= b + eps.
Proof.
  intros J S He. destruct (C118_close (fun t => ent (zip_with Rmult t mult)) (repeat 0 (length mult)) j n h (-7) 7 eps ltac:(lra) S He) as (G & HG). exists G.
  intros gp start thetas i theta Hgp Ls Hi Lt s x Hs Hx.
  assert (Es : nth j (zip_with Rmult start mult) 0 = s) by (rewrite P_Scale1.nth_zip_with with (da := 0) (db := 0) by lia; reflexivity).
  unfold bit_transform. cbv zeta. rewrite Ls. specialize (HG gp (zip_with Rmult start mult) (repeat (-7, 7) (length mult)) (map (adjust mult start) thetas) i x Hgp).
  rewrite Es in HG. apply HG; [rewrite zip_with_length; lia| | |exact Hs|exact Hx].
  - apply nth_error_nth. apply nth_error_repeat_lt. exact J.
  - unfold column. rewrite !nth_error_map, Hi. cbn [option_map]. f_equal. unfold adjust. rewrite P_Scale1.nth_zip_with with (da := 0) (db := 0) by (rewrite zip_with_length; lia). rewrite Es.
    rewrite P_Scale1.nth_zip_with with (da := 0) (db := 0) by lia. apply Rmax_left. apply Hs.
Qed.
Print Assumptions C118_transform.
(** The models the theorems are about: any one-parameter logistic test is smooth everywhere. *)
Theorem C118_logistic b lo hi : smooth_on (length b) (fun v => opl_bits b (zip_with Rmult (upd 0 v (repeat 0 1)) [1])) (fun i v => - ((v + nth i b 0) * (logistic (v + nth i b 0) * (1 - logistic (v + nth i b 0))) / ln 2)) lo hi.
Proof.
  assert (E : forall v, zip_with Rmult (upd 0 v (repeat 0 1)) [1] = upd 0 v [0]) by (intro v; cbn; now rewrite Rmult_1_r).
  destruct (opl_smooth b 0 [0] lo hi eq_refl ltac:(discriminate)) as [H1 H2]. split; [intro v; rewrite E; apply H1|]. intros i Hi v Hv. destruct (H2 i Hi v Hv) as [D C]. split; [|exact C].
  intros e He. destruct (D e He) as [dl Hd]. exists dl. intros k Hk Hs. rewrite !E. now apply Hd.
Qed.
Print Assumptions C118_logistic.
Lemma two_points s x pts : s < x -> StronglySorted Rlt pts -> (forall y, In y pts <-> y = s \/ y = x) -> pts = [s; x].
Proof.
  intros Hs HS HI. destruct pts as [|a [|b [|c l]]].
  - destruct (proj2 (HI s) ltac:(now left)).
  - destruct (proj2 (HI s) ltac:(now left)) as [E1|[]]. destruct (proj2 (HI x) ltac:(now right)) as [E2|[]]. lra.
  - inversion HS as [|? ? _ HF]; subst. apply Forall_inv in HF. destruct (proj1 (HI a) ltac:(now left)), (proj1 (HI b) ltac:(right; now left)); subst; try lra; reflexivity.
  - exfalso. inversion HS as [|? ? HS2 HF]; subst. inversion HS2 as [|? ? _ HF2]; subst. apply Forall_inv in HF. apply Forall_inv in HF2.
    destruct (proj1 (HI a) ltac:(now left)), (proj1 (HI b) ltac:(right; now left)), (proj1 (HI c) ltac:(right; right; now left)); lra.
Qed.
(** One item, one respondent: no point of the grid between start and score. *)
Lemma lone gp d s x : (1 <= gp)%nat -> s < x ->
  (forall k, (0 < k < gp)%nat -> let g := (1 - INR k / INR (gp - 1)) * -7 + INR k / INR (gp - 1) * 7 in g <= s \/ x < g) ->
  bit_transform (opl_bits [d]) gp [1] [s] [[x]] = [[Rabs (Hl (x + d) - Hl (s + d))]].
Proof.
  intros G Hs HK. set (entm := fun t => opl_bits [d] (zip_with Rmult t [1])).
  assert (U : bit_transform (opl_bits [d]) gp [1] [s] [[x]] = [bit_scores_variable entm gp [0] 0 (-7) 7 s [x]]).
  { unfold bit_transform, bit_scores. cbn [length seq map zip_with repeat nth fst snd]. f_equal. unfold column, adjust. cbn [map zip_with nth]. rewrite !Rmult_1_r, Rmax_left by lra. reflexivity. }
  rewrite U. f_equal. destruct (C42_score entm gp [0] [s] [(-7, 7)] [[x]] 0 0 x G ltac:(cbn; lia) eq_refl) as (pts & E & HS & HI). cbn [nth fst snd] in E, HI. unfold bit_scores in E. cbn [length seq map nth fst snd] in E. unfold column in E. cbn [map nth] in E.
  pose proof (bit_variable_length entm gp [0] 0 (-7) 7 s [x] G) as L. cbn [length] in L. destruct (bit_scores_variable entm gp [0] 0 (-7) 7 s [x]) as [|w [|]]; try discriminate L. cbn [nth_error] in E. f_equal. injection E as ->.
  rewrite Rmax_left in HI by lra. assert (P : pts = [s; x]).
  { apply two_points; [exact Hs|exact HS|]. intro y. rewrite HI. unfold column. cbn [map nth]. split.
    - intros [Hy [-> |[(k & Hk & ->)|(c & [<- |[]] & ->)]]]; [now left| |right; apply Rmax_left; lra]. left. destruct (HK k Hk) as [A|A]; cbv zeta in A; [now apply Rmax_right|]. rewrite Rmax_left in Hy by lra. lra.
    - intros [-> | ->]; [split; [lra|now left]|]. split; [lra|]. right. right. exists x. split; [now left|]. symmetry. apply Rmax_left. lra. }
  rewrite P. cbn [variation]. unfold gap, entm, opl_bits. cbn [upd zip_with map nth rsum]. rewrite !Rmult_1_r, !Rplus_0_r. reflexivity.
Qed.
Lemma ratio_range k gp : (0 < k < gp)%nat -> 0 < INR k / INR (gp - 1) <= 1.
Proof.
  intro Hk. assert (0 < INR (gp - 1)) by (apply lt_0_INR; lia). assert (0 < INR k) by (apply lt_0_INR; lia). assert (INR k <= INR (gp - 1)) by (apply le_INR; lia). split; [now apply Rdiv_lt_0_compat|].
  apply Rmult_le_reg_r with (INR (gp - 1)); [assumption|]. unfold Rdiv. rewrite Rmult_assoc, Rinv_l by lra. lra.
Qed.
(** Outside the range no number of grid points helps: an item of difficulty 8, start 7, score 9.  The score is 0 for
    every grid size although the integral is positive. *)
Theorem C118_outside_refuted : exists v, 0 < v /\ absolute_integral 1 (fun _ u => - ((u - 8) * (logistic (u - 8) * (1 - logistic (u - 8))) / ln 2)) 7 9 v /\
  forall gp, (1 <= gp)%nat -> bit_transform (opl_bits [-8]) gp [1] [7] [[9]] = [[0]].
Proof.
  exists (2 * Hl 0 - Hl (7 + -8) - Hl (9 + -8)). assert (E : Hl (9 + -8) = Hl (7 + -8)) by (replace (9 + -8) with (- (7 + -8)) by lra; apply Hl_flip). split; [|split].
  - rewrite E. pose proof (Hl_strict (7 + -8) 0 ltac:(lra) ltac:(lra)). lra.
  - exact (hump (-8) 7 9 ltac:(lra)).
  - intros gp G. rewrite lone; [|exact G|lra|]. { rewrite E, Rminus_eq_0, Rabs_R0. reflexivity. } intros k Hk. left. pose proof (ratio_range k gp Hk). lra.
Qed.
Print Assumptions C118_outside_refuted.
(** Below the range neither, and the start used when none is given is -10000: an item of difficulty -9, score -7.  The
    score falls short of the integral by the same positive amount for every grid size. *)
Theorem C118_default_start_refuted : exists b v, b < v /\ absolute_integral 1 (fun _ u => - ((u + 9) * (logistic (u + 9) * (1 - logistic (u + 9))) / ln 2)) (-10000) (-7) v /\
  forall gp, (1 <= gp)%nat -> bit_transform (opl_bits [9]) gp [1] [-10000] [[-7]] = [[b]].
Proof.
  exists (Rabs (Hl (-7 + 9) - Hl (-10000 + 9))), (2 * Hl 0 - Hl (-10000 + 9) - Hl (-7 + 9)).
  assert (E : Hl (-7 + 9) = Hl (-2)) by (replace (-7 + 9) with (- (-2)) by lra; apply Hl_flip). pose proof (Hl_strict (-2) 0 ltac:(lra) ltac:(lra)) as A. pose proof (Hl_strict (-10000 + 9) (-2) ltac:(lra) ltac:(lra)) as B. split; [|split].
  - rewrite E, Rabs_right by lra. lra.
  - exact (hump 9 (-10000) (-7) ltac:(lra)).
  - intros gp G. apply lone; [exact G|lra|]. intros k Hk. right. pose proof (ratio_range k gp Hk). lra.
Qed.
Print Assumptions C118_default_start_refuted.
(** A test of three items and two respondents. *)
Example C118_nonvacuous : smooth_on 3 (fun v => opl_bits [0; 1; -2] (zip_with Rmult (upd 0 v (repeat 0 (length [1]))) [1])) (fun i v => - ((v + nth i [0; 1; -2] 0) * (logistic (v + nth i [0; 1; -2] 0) * (1 - logistic (v + nth i [0; 1; -2] 0))) / ln 2)) (-7) 7 /\
  -7 <= nth 0 [-3] 0 * nth 0 [1] 0 <= nth 0 [2] 0 * nth 0 [1] 0 /\ nth 0 [2] 0 * nth 0 [1] 0 <= 7 /\ nth_error [[-1]; [2]] 1 = Some [2] /\
  smooth_on 3 (fun v => opl_bits [0; 1; -2] (upd 0 v [0])) (fun i v => hl (v + nth i [0; 1; -2] 0)) (-3) (Rmax 2 (-3)).
Proof. split; [exact (C118_logistic [0; 1; -2] (-7) 7)|]. split; [cbn; lra|]. split; [cbn; lra|]. split; [reflexivity|]. apply (opl_smooth [0; 1; -2] 0 [0]); [reflexivity|discriminate]. Qed.
