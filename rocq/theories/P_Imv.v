(** Convergence of the Newton iteration behind imv. *)
From Verif Require Import Base BaseFacts RBase RFacts M_Logit M_Mono M_Lik M_Est M_Stat S_Stat P_Stat3 P_Stat7.
Local Open Scope R_scope.

Lemma coin_mono a b : 1 / 2 < a -> a <= b -> b < 1 -> coin a <= coin b.
Proof. intros. pose proof (coin_tangent b a ltac:(lra) ltac:(lra)). pose proof (slope_pos a ltac:(lra)). assert (0 <= slope a * (b - a)) by (apply Rmult_le_pos; lra). lra. Qed.
Lemma coin_order : coin imv_lo <= coin imv_hi.
Proof. pose proof lo_half. pose proof lo_hi. pose proof hi_one. apply coin_mono; lra. Qed.
(** The weight's target: the log-likelihood moved into the range of the coins considered. *)
Definition aim (e : ext) : R := match e with Fin l => Rmin (Rmax l (coin imv_lo)) (coin imv_hi) | NInf => coin imv_lo | PInf => coin imv_hi end.
Definition settled (e : ext) (w : R) : Prop := (w = imv_lo /\ ext_le e (Fin (coin imv_lo))) \/ (w = imv_hi /\ ext_le (Fin (coin imv_hi)) e).
Lemma aim_low e : ext_le e (Fin (coin imv_lo)) -> aim e = coin imv_lo.
Proof. pose proof coin_order. destruct e as [l| |]; cbn [ext_le aim]; intros; try contradiction; [|reflexivity]. rewrite Rmax_right by lra. apply Rmin_left. lra. Qed.
Lemma aim_high e : ext_le (Fin (coin imv_hi)) e -> aim e = coin imv_hi.
Proof. pose proof coin_order. destruct e as [l| |]; cbn [ext_le aim]; intros; try contradiction; [|reflexivity]. rewrite Rmax_left by lra. apply Rmin_right. lra. Qed.
Lemma settled_aim e w : settled e w -> coin w = aim e.
Proof. intros [[-> H]|[-> H]]; symmetry; [apply aim_low|apply aim_high]; exact H. Qed.
Lemma settled_step e w d y : settled e w -> imv_step (Some e) (Some w) = (Some y, d) -> y = w.
Proof.
  intros H E. pose proof lo_half. pose proof lo_hi. pose proof hi_one. destruct H as [[-> H]|[-> H]]; destruct e as [l| |]; cbn [ext_le] in H; try contradiction; [| | |].
  - rewrite step_fin in E by lra. injection E as <- _. assert (S : 0 < slope imv_lo) by (apply slope_pos; lra).
    assert (D : 0 <= (coin imv_lo - l) / slope imv_lo) by (apply Rmult_le_pos; [lra|left; now apply Rinv_0_lt_compat]).
    replace (imv_lo + - (coin imv_lo - l) / slope imv_lo) with (imv_lo - (coin imv_lo - l) / slope imv_lo) by (field; lra). unfold clamp. rewrite Rmax_right by lra. apply Rmin_left. lra.
  - cbn [imv_step] in E. now injection E as <- _.
  - rewrite step_fin in E by lra. injection E as <- _. assert (S : 0 < slope imv_hi) by (apply slope_pos; lra).
    assert (D : 0 <= (l - coin imv_hi) / slope imv_hi) by (apply Rmult_le_pos; [lra|left; now apply Rinv_0_lt_compat]).
    replace (imv_hi + - (coin imv_hi - l) / slope imv_hi) with (imv_hi + (l - coin imv_hi) / slope imv_hi) by (field; lra). apply clamp_hi. lra.
  - cbn [imv_step] in E. now injection E as <- _.
Qed.
Lemma slope_hi v : imv_lo <= v <= imv_hi -> slope v <= 20.
Proof.
  intros H. pose proof lo_half. pose proof hi_one. apply Rle_trans with (slope imv_hi); [apply slope_mono; lra|]. unfold slope, imv_hi.
  assert (A : ln (1 - / 1000000) <= 0) by (rewrite <- ln_1; left; apply ln_increasing; lra).
  replace (1 - (1 - / 1000000)) with (/ 1000000) by lra. rewrite ln_Rinv by lra.
  assert (B : ln 1000000 <= ln (2 ^ 20)) by (left; apply ln_increasing; [lra|cbn [pow]; lra]). rewrite ln_pow in B by lra.
  pose proof (ln_le_sub1 2 ltac:(lra)) as C. replace (INR 20) with 20 in B by (cbn [INR]; lra). lra.
Qed.
Lemma slope_lo v : imv_lo <= v <= imv_hi -> 3 / 1000000 <= slope v.
Proof.
  intros H. pose proof lo_half. pose proof hi_one. apply Rle_trans with (slope imv_lo); [|apply slope_mono; lra]. unfold slope, imv_lo.
  set (a := 1 / 2 + / 1000000). replace (1 - a) with (1 / 2 - / 1000000) by (unfold a; lra). set (b := 1 / 2 - / 1000000).
  assert (Q : 0 < b / a) by (apply Rdiv_lt_0_compat; unfold a, b; lra). pose proof (ln_le_sub1 _ Q) as K. rewrite ln_quot in K by (unfold a, b; lra).
  assert (b / a - 1 <= - (3 / 1000000)); [|lra]. apply Rmult_le_reg_r with a; [unfold a; lra|]. unfold Rdiv at 1. rewrite Rmult_minus_distr_r, Rmult_assoc, Rinv_l by (unfold a; lra). unfold a, b. lra.
Qed.
(** A step from the right of the root that is not cut off divides the product of height and slope by four at least. *)
Lemma quarter l v y : imv_lo <= v <= imv_hi -> imv_lo <= y <= imv_hi -> l <= coin v -> l <= coin y -> y = v - (coin v - l) / slope v ->
  4 * ((coin y - l) * slope y) <= (coin v - l) * slope v.
Proof.
  intros Hv Hy Gv Gy E. pose proof lo_half. pose proof hi_one. assert (Sv : 0 < slope v) by (apply slope_pos; lra). assert (Sy : 0 < slope y) by (apply slope_pos; lra).
  pose proof (coin_tangent v y ltac:(lra) ltac:(lra)) as T. set (A := coin v - l) in *. set (B := slope v) in *. set (a := coin y - l) in *. set (b := slope y) in *.
  assert (T' : a + b * (A / B) <= A) by (assert (D : v - y = A / B) by (rewrite E; ring); rewrite D in T; assert (coin v = l + A) by (unfold A; ring); assert (coin y = l + a) by (unfold a; ring); lra).
  assert (T2 : a * B + b * A <= A * B) by (apply (Rmult_le_compat_r B) in T'; [|lra]; replace ((a + b * (A / B)) * B) with (a * B + b * A) in T' by (field; lra); exact T').
  assert (A0 : 0 <= A) by (unfold A; lra). assert (a0 : 0 <= a) by (unfold a; lra).
  destruct (Req_EM_T A 0) as [Z|Z].
  - rewrite Z in *. assert (a * B <= 0) by lra. assert (a = 0) by nra. rewrite H2. lra.
  - assert (P : 0 < A * B) by (apply Rmult_lt_0_compat; lra). apply Rmult_le_reg_r with (A * B); [exact P|].
    assert (S1 : 0 <= (a * B - b * A) * (a * B - b * A)) by (apply Rle_0_sqr). assert (N : 0 <= a * B + b * A) by (apply Rplus_le_le_0_compat; apply Rmult_le_pos; lra).
    assert (S2 : (a * B + b * A) * (a * B + b * A) <= (A * B) * (A * B)) by (apply Rmult_le_compat; lra). nra.
Qed.
(** After [k + 1] steps. *)
Definition good (k : nat) (e : ext) (w : R) : Prop := imv_lo <= w <= imv_hi /\
  (settled e w \/ exists l, e = Fin l /\ l < coin imv_hi /\ l <= coin w /\ (k = O \/ (coin w - l) * slope w <= 50 / 4 ^ (k - 1))).
Lemma good_step k e v w d : good k e v -> imv_step (Some e) (Some v) = (Some w, d) -> good (S k) e w.
Proof.
  intros [R H] E. pose proof lo_half. pose proof lo_hi. pose proof hi_one. destruct H as [H|(l & -> & Lh & G & B)].
  - rewrite (settled_step _ _ _ _ H E). split; [exact R|]. now left.
  - rewrite step_fin in E by exact R. injection E as <- _. split; [apply clamp_range|].
    assert (Sv : 0 < slope v) by (apply slope_pos; lra). assert (D : 0 <= (coin v - l) / slope v) by (apply Rmult_le_pos; [lra|left; now apply Rinv_0_lt_compat]).
    replace (v + - (coin v - l) / slope v) with (v - (coin v - l) / slope v) by (field; lra). set (x := v - (coin v - l) / slope v) in *.
    destruct (Rle_dec x imv_lo) as [X|X].
    + left. left. split; [unfold clamp; rewrite Rmax_right by lra; apply Rmin_left; lra|]. cbn [ext_le].
      pose proof (coin_tangent imv_lo v ltac:(lra) ltac:(lra)) as T. assert (Z : l = coin v + slope v * (x - v)) by (unfold x; field; lra).
      assert (slope v * (x - v) <= slope v * (imv_lo - v)) by (apply Rmult_le_compat_l; lra). lra.
    + assert (Y : clamp imv_lo imv_hi x = x) by (unfold clamp; rewrite Rmax_left by lra; apply Rmin_left; unfold x; lra). rewrite Y.
      assert (Rx : imv_lo <= x <= imv_hi) by (unfold x in *; lra). assert (Gx : l <= coin x).
      { pose proof (coin_tangent x v ltac:(lra) ltac:(lra)) as T. assert (Z : l = coin v + slope v * (x - v)) by (unfold x; field; lra). lra. }
      right. exists l. split; [reflexivity|]. split; [exact Lh|]. split; [exact Gx|]. right. pose proof (quarter l v x R Rx G Gx eq_refl) as Q.
      destruct k as [|k].
      * cbn [Nat.sub pow]. pose proof (slope_hi v R) as U. assert (F : coin v - l <= slope v * (1 / 2)).
        { assert (Fx : (coin v - l) / slope v <= 1 / 2) by (unfold x in *; lra). apply (Rmult_le_compat_r (slope v)) in Fx; [|lra]. unfold Rdiv in Fx at 1. rewrite Rmult_assoc, Rinv_l in Fx by lra. lra. }
        assert ((coin v - l) * slope v <= 200) by nra. lra.
      * destruct B as [B|B]; [discriminate|]. replace (S (S k) - 1)%nat with (S (S k - 1)) by lia. cbn [pow]. assert (P : 0 < 4 ^ (S k - 1)) by (apply pow_lt; lra).
        replace (50 / (4 * 4 ^ (S k - 1))) with (/ 4 * (50 / 4 ^ (S k - 1))) by (field; lra). lra.
Qed.
Lemma good_first e w d : imv_step (Some e) (Some (3 / 4)) = (Some w, d) -> good 0 e w.
Proof.
  intros E. pose proof lo_half. pose proof lo_hi. pose proof hi_one. assert (V : imv_lo <= 3 / 4 <= imv_hi) by (unfold imv_lo, imv_hi; lra). assert (V' : 3 / 4 < 1) by lra.
  destruct (step_right e (3 / 4) V) as (w' & d' & E' & Q). rewrite E in E'. injection E' as <- <-. destruct Q as [R Q]. split; [exact R|].
  destruct e as [l| |].
  - destruct (Rle_dec (coin imv_hi) l) as [L|L].
    + left. right. split; [|exact L]. rewrite step_fin in E by exact V. injection E as <- _. apply clamp_hi.
      pose proof (coin_tangent imv_hi (3 / 4) ltac:(lra) ltac:(lra)) as T. assert (S : 0 < slope (3 / 4)) by (apply slope_pos; lra).
      apply Rmult_le_reg_l with (slope (3 / 4)); [exact S|]. rewrite Rmult_plus_distr_l. replace (slope (3 / 4) * (- (coin (3 / 4) - l) / slope (3 / 4))) with (l - coin (3 / 4)) by (field; lra). lra.
    + right. exists l. split; [reflexivity|]. split; [lra|]. split; [|now left]. destruct Q as [Q| ->]; lra.
  - left. left. split; [exact Q|exact I].
  - left. right. split; [exact Q|exact I].
Qed.
Definition accurate (e : ext) (w : R) : Prop := imv_lo <= w <= imv_hi /\ aim e <= coin w <= aim e + 2 / 1000000.
Lemma settled_accurate e w : imv_lo <= w <= imv_hi -> settled e w -> accurate e w.
Proof. intros R H. split; [exact R|]. rewrite (settled_aim e w H). lra. Qed.
Lemma aim_near l w : imv_lo <= w <= imv_hi -> l <= coin w <= l + 2 / 1000000 -> l <= coin imv_hi -> accurate (Fin l) w.
Proof.
  intros R H L. pose proof lo_half. pose proof hi_one. assert (coin imv_lo <= coin w) by (apply coin_mono; lra). assert (coin w <= coin imv_hi) by (apply coin_mono; lra).
  split; [exact R|]. cbn [aim]. unfold Rmin, Rmax. destruct (Rle_dec l (coin imv_lo)), (Rle_dec _ (coin imv_hi)); lra.
Qed.
(** Stopped because the step was short. *)
Lemma short_step l v w d : imv_lo <= v <= imv_hi -> l < coin imv_hi -> l <= coin v \/ v = 3 / 4 -> imv_step (Some (Fin l)) (Some v) = (Some w, Some (Fin d)) -> d < / 1000000 -> accurate (Fin l) w.
Proof.
  intros R L G E Hd. pose proof lo_half. pose proof lo_hi. pose proof hi_one. rewrite step_fin in E by exact R. injection E as <- <-.
  assert (S : 0 < slope v) by (apply slope_pos; lra). set (x := v + - (coin v - l) / slope v) in *.
  assert (Z : l = coin v + slope v * (x - v)) by (unfold x; field; lra). assert (Dx : Rabs (x - v) < / 1000000) by (replace (x - v) with (- (coin v - l) / slope v) by (unfold x; ring); exact Hd).
  apply Rabs_def2 in Dx. assert (Xh : x <= imv_hi).
  { destruct G as [G| ->]; [|unfold imv_hi; lra]. assert (0 <= (coin v - l) / slope v) by (apply Rmult_le_pos; [lra|left; now apply Rinv_0_lt_compat]). unfold x. replace (- (coin v - l) / slope v) with (- ((coin v - l) / slope v)) by (field; lra). lra. }
  destruct (Rle_dec x imv_lo) as [X|X].
  - assert (C : clamp imv_lo imv_hi x = imv_lo) by (unfold clamp; rewrite Rmax_right by lra; apply Rmin_left; lra). rewrite C. apply settled_accurate; [lra|]. left. split; [reflexivity|]. cbn [ext_le].
    pose proof (coin_tangent imv_lo v ltac:(lra) ltac:(lra)) as T. assert (slope v * (x - v) <= slope v * (imv_lo - v)) by (apply Rmult_le_compat_l; lra). lra.
  - assert (C : clamp imv_lo imv_hi x = x) by (unfold clamp; rewrite Rmax_left by lra; apply Rmin_left; lra). rewrite C. apply aim_near; [lra| |lra].
    pose proof (coin_tangent x v ltac:(lra) ltac:(lra)) as T. split; [lra|].
    pose proof (coin_tangent v x ltac:(lra) ltac:(lra)) as T'. assert (B : coin x - l <= (slope x - slope v) * (x - v)) by nra.
    apply Rle_trans with (l + (slope x - slope v) * (x - v)); [lra|]. apply Rplus_le_compat_l.
    assert (K : forall p q, imv_lo <= p <= imv_hi -> imv_lo <= q <= imv_hi -> p <= q -> q - p < / 1000000 -> slope q - slope p <= 2).
    { intros p q Hp Hq O Hs. unfold slope. assert (Q1 : 0 < q / p) by (apply Rdiv_lt_0_compat; lra). assert (Q2 : 0 < (1 - p) / (1 - q)) by (apply Rdiv_lt_0_compat; lra).
      pose proof (ln_le_sub1 _ Q1) as K1. pose proof (ln_le_sub1 _ Q2) as K2. rewrite ln_quot in K1, K2 by lra.
      assert (U1 : q / p - 1 <= 1) by (apply Rmult_le_reg_r with p; [lra|]; unfold Rdiv; rewrite Rmult_minus_distr_r, Rmult_assoc, Rinv_l by lra; lra).
      assert (U2 : (1 - p) / (1 - q) - 1 <= 1) by (apply Rmult_le_reg_r with (1 - q); [lra|]; unfold Rdiv; rewrite Rmult_minus_distr_r, Rmult_assoc, Rinv_l by lra; unfold imv_hi in *; lra). lra. }
    destruct (Rle_dec v x) as [O|O].
    + pose proof (K v x R ltac:(lra) O ltac:(lra)). pose proof (slope_mono v x ltac:(lra) O ltac:(lra)). apply Rle_trans with (2 * / 1000000); [apply Rmult_le_compat; lra|lra].
    + pose proof (K x v ltac:(lra) R ltac:(lra) ltac:(lra)). pose proof (slope_mono x v ltac:(lra) ltac:(lra) ltac:(lra)). replace ((slope x - slope v) * (x - v)) with ((slope v - slope x) * (v - x)) by ring.
      apply Rle_trans with (2 * / 1000000); [apply Rmult_le_compat; lra|lra].
Qed.
Lemma good_accurate k e w : (23 <= k)%nat -> good k e w -> accurate e w.
Proof.
  intros K [R H]. destruct H as [H|(l & -> & L & G & B)]; [now apply settled_accurate|]. destruct B as [B|B]; [lia|]. apply aim_near; [exact R| |lra]. split; [exact G|].
  pose proof (slope_lo w R) as S. assert (P : 4 ^ 22 <= 4 ^ (k - 1)) by (apply Rle_pow; [lra|lia]).
  assert (Q : 50 / 4 ^ (k - 1) <= 6 / 1000000000000).
  { apply Rle_trans with (50 / 4 ^ 22); [|cbn [pow]; lra]. unfold Rdiv. apply Rmult_le_compat_l; [lra|]. apply Rinv_le_contravar; [apply pow_lt; lra|exact P]. }
  assert (X : (coin w - l) * (3 / 1000000) <= (coin w - l) * slope w) by (apply Rmult_le_compat_l; lra). lra.
Qed.
Lemma fmax_below l r : fltb (fmax l) r = true -> forall d, In d l -> match d with Some (Fin x) => x < r | Some NInf => True | _ => False end.
Proof.
  induction l as [|a l IH]; intros H d Hd; [contradiction|]. cbn [fmax fold_right] in H. fold (fmax l) in H. destruct (fgt a (fmax l)) eqn:G.
  - assert (M : fltb (fmax l) r = true).
    { destruct a as [[x| |]|], (fmax l) as [[y| |]|]; cbn [fgt fltb] in *; try discriminate; try reflexivity. destruct (Rlt_dec y x); [|discriminate]. destruct (Rlt_dec x r); [|discriminate]. destruct (Rlt_dec y r); [reflexivity|lra]. }
    destruct Hd as [<-|Hd]; [|exact (IH M d Hd)]. destruct a as [[x| |]|]; cbn [fltb] in H; try discriminate; [|exact I]. destruct (Rlt_dec x r); [assumption|discriminate].
  - destruct Hd as [<-|Hd]; [|exact (IH H d Hd)]. destruct a as [[x| |]|], (fmax l) as [[y| |]|]; cbn [fgt fltb] in *; try discriminate; try exact I.
    destruct (Rlt_dec y x); [discriminate|]. destruct (Rlt_dec y r); [lra|discriminate].
Qed.
Lemma step_both_parts e v : imv_lo <= v <= imv_hi -> exists w d, imv_step (Some e) (Some v) = (Some w, d) /\ (match e with Fin _ => exists x, d = Some (Fin x) | _ => d = Some PInf end).
Proof.
  intros R. destruct e as [l| |]; [rewrite step_fin by exact R; do 2 eexists; split; [reflexivity|eexists; reflexivity]|cbn [imv_step]; do 2 eexists; split; reflexivity..].
Qed.
Lemma nth_error_zip {A B C} (f : A -> B -> C) l m j a b : nth_error l j = Some a -> nth_error m j = Some b -> nth_error (zip_with f l m) j = Some (f a b).
Proof. revert m j. induction l as [|x l IH]; intros [|y m] [|j] Ha Hb; cbn [nth_error zip_with] in *; try discriminate; [congruence|]. now apply IH. Qed.
Lemma stop_accurate k e v w d r : good k e v -> imv_step (Some e) (Some v) = (Some w, d) -> (match d with Some (Fin x) => x < r | Some NInf => True | _ => False end) -> r = / 1000000 -> accurate e w.
Proof.
  intros G E B ->. destruct G as [R [H|(l & -> & L & G & _)]].
  - rewrite (settled_step _ _ _ _ H E). now apply settled_accurate.
  - destruct (step_both_parts (Fin l) v R) as (w' & d' & E' & x & ->). rewrite E in E'. injection E' as <- ->. exact (short_step l v w x R L (or_introl G) E B).
Qed.
Lemma loop_accurate n : forall k es ws j e v, length ws = length es -> nth_error es j = Some (Some e) -> nth_error ws j = Some (Some v) -> good k e v -> (23 <= k + n)%nat ->
  exists w, nth_error (imv_loop n es ws) j = Some (Some w) /\ accurate e w.
Proof.
  induction n as [|n IH]; intros k es ws j e v L He Hw G K; [exists v; split; [exact Hw|]; apply (good_accurate k); [lia|exact G]|].
  destruct (step_both_parts e v (proj1 G)) as (w & d & E & _). cbn [imv_loop].
  assert (Z : nth_error (zip_with imv_step es ws) j = Some (Some w, d)) by (rewrite (nth_error_zip _ _ _ _ _ _ He Hw); now rewrite E).
  assert (Z1 : nth_error (map fst (zip_with imv_step es ws)) j = Some (Some w)) by (rewrite nth_error_map, Z; reflexivity).
  assert (Z2 : nth_error (map snd (zip_with imv_step es ws)) j = Some d) by (rewrite nth_error_map, Z; reflexivity).
  destruct (fltb _ _) eqn:F.
  - exists w. split; [exact Z1|]. apply (stop_accurate k e v w d (/ 1000000) G E); [|reflexivity]. exact (fmax_below _ _ F d (nth_error_In _ _ Z2)).
  - apply (IH (S k) es _ j e w); [rewrite map_length, zip_with_length; lia|exact He|exact Z1|exact (good_step k e v w d G E)|lia].
Qed.
Lemma newton_accurate n es j e : (24 <= n)%nat -> nth_error es j = Some (Some e) -> exists w, nth_error (imv_newton_raphson n es) j = Some (Some w) /\ accurate e w.
Proof.
  intros N He. unfold imv_newton_raphson. destruct n as [|n]; [lia|]. set (ws := map (fun _ : fl => Some (3 / 4)) es).
  assert (L : length ws = length es) by (unfold ws; apply map_length). assert (Hw : nth_error ws j = Some (Some (3 / 4))) by (unfold ws; rewrite nth_error_map, He; reflexivity).
  assert (V : imv_lo <= 3 / 4 <= imv_hi) by (unfold imv_lo, imv_hi; lra).
  destruct (step_both_parts e (3 / 4) V) as (w & d & E & Hd). pose proof (good_first e w d E) as G. cbn [imv_loop].
  assert (Z : nth_error (zip_with imv_step es ws) j = Some (Some w, d)) by (rewrite (nth_error_zip _ _ _ _ _ _ He Hw); now rewrite E).
  assert (Z1 : nth_error (map fst (zip_with imv_step es ws)) j = Some (Some w)) by (rewrite nth_error_map, Z; reflexivity).
  assert (Z2 : nth_error (map snd (zip_with imv_step es ws)) j = Some d) by (rewrite nth_error_map, Z; reflexivity).
  destruct (fltb _ _) eqn:F.
  - exists w. split; [exact Z1|]. pose proof (fmax_below _ _ F d (nth_error_In _ _ Z2)) as B. destruct e as [l| |]; [|rewrite Hd in B; contradiction..]. destruct Hd as [x ->].
    destruct G as [R [H|(l' & [= <-] & Lh & _)]]; [now apply settled_accurate|]. exact (short_step l (3 / 4) w x V Lh (or_intror eq_refl) E B).
  - apply (loop_accurate n 0 es _ j e w); [rewrite map_length, zip_with_length; lia|exact He|exact Z1|exact G|lia].
Qed.
(** ** Below the log-likelihood of a fair coin *)
Lemma coin_half v : 0 < v < 1 -> - ln 2 <= coin v.
Proof.
  intros H. pose proof (coin_tangent v (1 / 2) H ltac:(lra)) as T. unfold slope in T. replace (1 - 1 / 2) with (1 / 2) in T by lra. unfold coin at 1 in T. replace (1 - 1 / 2) with (1 / 2) in T by lra.
  assert (E : ln (1 / 2) = - ln 2) by (replace (1 / 2) with (/ 2) by lra; apply ln_Rinv; lra). rewrite E in T. lra.
Qed.
Lemma ln2_below : ln 2 <= 78 / 100.
Proof.
  replace 2 with (5 / 4 * (5 / 4) * (32 / 25)) by lra. rewrite !ln_mult by lra. pose proof (ln_le_sub1 (5 / 4) ltac:(lra)). pose proof (ln_le_sub1 (32 / 25) ltac:(lra)). lra.
Qed.
Lemma low_step l v w d : imv_lo <= v <= imv_hi -> l <= - (4 / 5) -> imv_step (Some (Fin l)) (Some v) = (Some w, d) -> exists x, d = Some (Fin x) /\ / 1000000 <= x.
Proof.
  intros R Hl E. pose proof lo_half. pose proof hi_one. rewrite step_fin in E by exact R. injection E as _ <-. eexists. split; [reflexivity|].
  pose proof (coin_half v ltac:(lra)). pose proof ln2_below. assert (Sv : 0 < slope v) by (apply slope_pos; lra). pose proof (slope_hi v R) as U.
  replace (- (coin v - l) / slope v) with (- ((coin v - l) / slope v)) by (field; lra). rewrite Rabs_Ropp.
  assert (/ 1000000 <= (coin v - l) / slope v); [|apply Rle_trans with (2 := Rle_abs _); assumption].
  apply Rmult_le_reg_r with (slope v); [exact Sv|]. unfold Rdiv. rewrite Rmult_assoc, Rinv_l by lra. lra.
Qed.
Lemma no_stop es ws j l v : nth_error es j = Some (Some (Fin l)) -> nth_error ws j = Some (Some v) -> imv_lo <= v <= imv_hi -> l <= - (4 / 5) ->
  fltb (fmax (map snd (zip_with imv_step es ws))) (/ 1000000) = false.
Proof.
  intros He Hw R Hl. destruct (fltb _ _) eqn:F; [|reflexivity]. exfalso. destruct (step_both_parts (Fin l) v R) as (w & d & E & _). destruct (low_step l v w d R Hl E) as (x & -> & X).
  assert (Z2 : nth_error (map snd (zip_with imv_step es ws)) j = Some (Some (Fin x))) by (rewrite nth_error_map, (nth_error_zip _ _ _ _ _ _ He Hw), E; reflexivity).
  pose proof (fmax_below _ _ F _ (nth_error_In _ _ Z2)) as B. cbn beta iota in B. lra.
Qed.
Lemma good_low k l w : (23 <= k)%nat -> good k (Fin l) w -> l <= - (4 / 5) -> w = imv_lo.
Proof.
  intros K [R H] Hl. pose proof lo_half. pose proof hi_one. pose proof ln2_below. pose proof (coin_half w ltac:(lra)). pose proof (coin_half imv_hi ltac:(pose proof lo_hi; lra)).
  destruct H as [[[-> _]|[_ H]]|(l' & [= <-] & _ & G & [B|B])]; [reflexivity|cbn [ext_le] in H; lra|lia|]. exfalso.
  pose proof (slope_lo w R) as S. assert (P : 4 ^ 22 <= 4 ^ (k - 1)) by (apply Rle_pow; [lra|lia]).
  assert (Q : 50 / 4 ^ (k - 1) <= 6 / 1000000000000).
  { apply Rle_trans with (50 / 4 ^ 22); [|cbn [pow]; lra]. unfold Rdiv. apply Rmult_le_compat_l; [lra|]. apply Rinv_le_contravar; [apply pow_lt; lra|exact P]. }
  assert (X : (coin w - l) * (3 / 1000000) <= (coin w - l) * slope w) by (apply Rmult_le_compat_l; lra). lra.
Qed.
Lemma loop_low n : forall k es ws j l v, length ws = length es -> nth_error es j = Some (Some (Fin l)) -> nth_error ws j = Some (Some v) -> good k (Fin l) v -> (23 <= k + n)%nat -> l <= - (4 / 5) ->
  nth_error (imv_loop n es ws) j = Some (Some imv_lo).
Proof.
  induction n as [|n IH]; intros k es ws j l v L He Hw G K Hl; [cbn [imv_loop]; rewrite Hw; do 2 f_equal; apply (good_low k l); [lia|exact G|exact Hl]|].
  cbn [imv_loop]. rewrite (no_stop es ws j l v He Hw (proj1 G) Hl). destruct (step_both_parts (Fin l) v (proj1 G)) as (w & d & E & _).
  apply (IH (S k) es _ j l w); [rewrite map_length, zip_with_length; lia|exact He| |exact (good_step k _ v w d G E)|lia|exact Hl].
  rewrite nth_error_map, (nth_error_zip _ _ _ _ _ _ He Hw), E. reflexivity.
Qed.
Lemma newton_low n es j l : (24 <= n)%nat -> nth_error es j = Some (Some (Fin l)) -> l <= - (4 / 5) -> nth_error (imv_newton_raphson n es) j = Some (Some imv_lo).
Proof.
  intros N He Hl. unfold imv_newton_raphson. destruct n as [|n]; [lia|]. set (ws := map (fun _ : fl => Some (3 / 4)) es).
  assert (L : length ws = length es) by (unfold ws; apply map_length). assert (Hw : nth_error ws j = Some (Some (3 / 4))) by (unfold ws; rewrite nth_error_map, He; reflexivity).
  assert (V : imv_lo <= 3 / 4 <= imv_hi) by (unfold imv_lo, imv_hi; lra). cbn [imv_loop]. rewrite (no_stop es ws j l (3 / 4) He Hw V Hl).
  destruct (step_both_parts (Fin l) (3 / 4) V) as (w & d & E & _).
  apply (loop_low n 0 es _ j l w); [rewrite map_length, zip_with_length; lia|exact He| |exact (good_first _ w d E)|lia|exact Hl].
  rewrite nth_error_map, (nth_error_zip _ _ _ _ _ _ He Hw), E. reflexivity.
Qed.
