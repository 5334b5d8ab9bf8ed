(** Theorems about bit scores (C42, C73), interpolation (C43), ranks (C44), outliers (C45) and the quantile-based
    density (C74). *)
From Coq Require Import Permutation Sorted.
From Verif Require Import Base BaseFacts RBase RFacts M_Logit M_Mono M_Lik M_Est M_Stat M_Grid S_Grid P_Mono1 P_Scale1 P_Grid1 P_Grid2 P_Grid3 P_Grid4 P_Grid5 P_Grid6 P_Grid7.
Local Open Scope R_scope.

Lemma some_inj {A} (a b : A) : Some a = Some b -> a = b.
Proof. congruence. Qed.

(** ** C42 *)
Lemma bit_scores_nth ent gp medians start bounds thetas j i x : (j < length start)%nat -> nth_error (column 0 j thetas) i = Some x ->
  nth_error (nth j (bit_scores ent gp medians start bounds thetas) []) i
  = nth_error (bit_scores_variable ent gp medians j (fst (nth j bounds (0, 0))) (snd (nth j bounds (0, 0))) (nth j start 0) (column 0 j thetas)) i.
Proof. intros H _. unfold bit_scores. rewrite nth_map_seq by exact H. reflexivity. Qed.

(** The score of respondent [i] for variable [j] is the sum over the items of the absolute entropy changes along the
    points of the grid from the start to the respondent's score. *)
Theorem C42_score ent gp medians start bounds thetas j i x :
  (1 <= gp)%nat -> (j < length start)%nat -> nth_error (column 0 j thetas) i = Some x ->
  exists pts, nth_error (nth j (bit_scores ent gp medians start bounds thetas) []) i = Some (variation (fun v => ent (upd j v medians)) pts) /\
    StronglySorted Rlt pts /\
    forall y, In y pts <-> y <= Rmax x (nth j start 0) /\
      grid_value gp (fst (nth j bounds (0, 0))) (snd (nth j bounds (0, 0))) (nth j start 0) (column 0 j thetas) y.
Proof. intros G J X. rewrite (bit_scores_nth ent gp medians start bounds thetas j i x J X). apply score_points; assumption. Qed.
Print Assumptions C42_score.

(** Nonnegative, zero at and below the start, and never smaller for a higher score of the same batch. *)
Theorem C42_order ent gp medians start bounds thetas j :
  (1 <= gp)%nat -> (j < length start)%nat ->
  length (nth j (bit_scores ent gp medians start bounds thetas) []) = length thetas /\
  (forall i v, nth_error (nth j (bit_scores ent gp medians start bounds thetas) []) i = Some v -> 0 <= v) /\
  (forall i x, nth_error (column 0 j thetas) i = Some x -> x <= nth j start 0 ->
     nth_error (nth j (bit_scores ent gp medians start bounds thetas) []) i = Some 0) /\
  (forall i k x y a b, nth_error (column 0 j thetas) i = Some x -> nth_error (column 0 j thetas) k = Some y -> x <= y ->
     nth_error (nth j (bit_scores ent gp medians start bounds thetas) []) i = Some a ->
     nth_error (nth j (bit_scores ent gp medians start bounds thetas) []) k = Some b -> a <= b).
Proof.
  intros G J. unfold bit_scores. rewrite nth_map_seq by exact J. split; [|split; [|split]].
  - rewrite bit_variable_length by exact G. unfold column. apply map_length.
  - intros i v. apply score_nonneg. exact G.
  - intros i x. apply score_start. exact G.
  - intros i k x y a b. apply score_mono. exact G.
Qed.
Print Assumptions C42_order.

(** At least the total absolute entropy difference between start and score; exactly that when the entropy of every item
    is monotone in between. *)
Theorem C42_difference ent gp medians start bounds thetas j i x n :
  (1 <= gp)%nat -> (j < length start)%nat -> nth_error (column 0 j thetas) i = Some x ->
  ((forall t, length (ent t) = n) -> exists v, nth_error (nth j (bit_scores ent gp medians start bounds thetas) []) i = Some v /\
     gap (ent (upd j (nth j start 0) medians)) (ent (upd j (Rmax x (nth j start 0)) medians)) <= v) /\
  (coordinatewise_monotone (fun v => ent (upd j v medians)) n (nth j start 0) (Rmax x (nth j start 0)) ->
     nth_error (nth j (bit_scores ent gp medians start bounds thetas) []) i
     = Some (gap (ent (upd j (nth j start 0) medians)) (ent (upd j (Rmax x (nth j start 0)) medians)))).
Proof.
  intros G J X. rewrite (bit_scores_nth ent gp medians start bounds thetas j i x J X). split.
  - intros L. set (l := bit_scores_variable _ _ _ _ _ _ _ _). destruct (nth_error l i) as [v|] eqn:V.
    + exists v. split; [reflexivity|]. apply (score_lower ent gp medians j (fst (nth j bounds (0, 0))) (snd (nth j bounds (0, 0))) (nth j start 0) (column 0 j thetas) G n i x v); [intros; apply L|exact X|exact V].
    + exfalso. apply nth_error_None in V. unfold l in V. rewrite bit_variable_length in V by exact G. assert (i < length (column 0%R j thetas))%nat by (apply nth_error_Some; congruence). lia.
  - intros M. apply (score_equal ent gp medians j (fst (nth j bounds (0, 0))) (snd (nth j bounds (0, 0))) (nth j start 0) (column 0 j thetas) G n i x M X).
Qed.
Print Assumptions C42_difference.

(** What [transform] passes on: scores multiplied by the direction of the variable and not below the start; grid from
    -7 to 7, the other variables at 0. *)
Theorem C42_transform ent gp mult start thetas j i theta :
  (1 <= gp)%nat -> length mult = length start -> (j < length start)%nat -> nth_error thetas i = Some theta -> length theta = length start ->
  let s := nth j start 0 * nth j mult 0 in
  let x := Rmax (nth j theta 0 * nth j mult 0) s in
  let along := fun v => ent (zip_with Rmult (upd j v (repeat 0 (length start))) mult) in
  (exists pts, nth_error (nth j (bit_transform ent gp mult start thetas) []) i = Some (variation along pts) /\
     StronglySorted Rlt pts /\ In s pts /\ In x pts /\ Forall (fun y => s <= y <= x) pts) /\
  (nth j theta 0 = nth j start 0 -> nth_error (nth j (bit_transform ent gp mult start thetas) []) i = Some 0) /\
  (forall n, coordinatewise_monotone along n s x -> nth_error (nth j (bit_transform ent gp mult start thetas) []) i = Some (gap (along s) (along x))).
Proof.
  intros G Lm J T Lt s x along. set (start' := zip_with Rmult start mult). set (thetas' := map (adjust mult start) thetas).
  assert (Ls : length start' = length start) by (unfold start'; rewrite zip_with_length; lia).
  assert (Es : nth j start' 0 = s) by (unfold start'; rewrite nth_zip_with with (da := 0) (db := 0) by lia; reflexivity).
  assert (X : nth_error (column 0 j thetas') i = Some x).
  { unfold column, thetas'. rewrite map_map, nth_error_map, T. cbn [option_map]. f_equal. unfold adjust. fold start'. rewrite nth_zip_with with (da := 0) (db := 0) by (try rewrite zip_with_length; lia). rewrite Es.
    rewrite nth_zip_with with (da := 0) (db := 0) by lia. reflexivity. }
  assert (Mx : Rmax x s = x) by (apply Rmax_left; apply Rmax_r).
  set (entm := fun t => ent (zip_with Rmult t mult)).
  pose (B := bit_scores entm gp (repeat 0 (length start)) start' (repeat (-7, 7) (length start)) thetas'). change (bit_transform ent gp mult start thetas) with B.
  split; [|split].
  - destruct (C42_score entm gp (repeat 0 (length start)) start' (repeat (-7, 7) (length start)) thetas' j i x G ltac:(lia) X) as (pts & P & Q & I). exists pts. rewrite Es, Mx in I.
    assert (A : forall y, grid_value gp (fst (nth j (repeat (-7, 7) (length start)) (0, 0))) (snd (nth j (repeat (-7, 7) (length start)) (0, 0))) s (column 0 j thetas') y -> s <= y)
      by (intros y [->|[(k & _ & ->)|(c & _ & ->)]]; [lra|apply Rmax_r|apply Rmax_r]).
    split; [exact P|]. split; [exact Q|]. split; [apply I; split; [apply Rmax_r|left; reflexivity]|]. split.
    + apply I. split; [lra|]. right. right. exists x. split; [apply nth_error_In with i; exact X|symmetry; exact Mx].
    + apply Forall_forall. intros y Hy. apply I in Hy. destruct Hy as [H1 H2]. apply A in H2. lra.
  - intros E. destruct (C42_order entm gp (repeat 0 (length start)) start' (repeat (-7, 7) (length start)) thetas' j G ltac:(lia)) as (_ & _ & Z & _). apply (Z i x X). rewrite Es. unfold x. rewrite E. fold s. rewrite Rmax_left; lra.
  - intros n M. destruct (C42_difference entm gp (repeat 0 (length start)) start' (repeat (-7, 7) (length start)) thetas' j i x n G ltac:(lia) X) as [_ D]. rewrite Es, Mx in D. apply D. exact M.
Qed.
Print Assumptions C42_transform.

(** The score over all variables at once: changes along one path from start to score. *)
Theorem C42_one_dimensional ent gp theta start bounds n :
  (2 <= gp)%nat -> Forall2 Rle start theta ->
  (exists path, bit_score_1d ent gp theta start bounds = variation ent path /\ length path = gp /\ nth 0 path [] = start /\ nth (gp - 1) path [] = theta) /\
  0 <= bit_score_1d ent gp theta start bounds /\
  ((forall t, length (ent t) = n) -> gap (ent start) (ent theta) <= bit_score_1d ent gp theta start bounds).
Proof.
  intros G F. pose proof (P_Stat2.F2_length _ _ _ F) as L. split; [exists (grid_path gp theta start bounds)|split].
  - split; [apply rsum_changes|]. split; [apply path_length|]. split; [apply path_first; lia|apply path_last; assumption].
  - unfold bit_score_1d. rewrite rsum_changes. apply variation_nonneg.
  - intros H. apply score_1d_lower with n; assumption.
Qed.
Print Assumptions C42_one_dimensional.
Theorem C42_one_dimensional_start ent gp start bounds :
  length bounds = length start -> bit_score_1d ent gp start start bounds = 0.
Proof.
  intros _. unfold bit_score_1d. rewrite rsum_changes, (variation_sum _ _ start), path_length. apply P_Stat1.sumn_zero. intros k Hk.
  assert (P : forall k, (k < gp)%nat -> nth k (grid_path gp start start bounds) start = start).
  { clear k Hk. intros k Hk. rewrite (nth_error_nth _ _ start (path_nth gp start start bounds k Hk)). apply mapi_eq; [reflexivity|]. intros j x y X Y. rewrite X in Y. injection Y as <-. rewrite (nth_error_nth _ _ 0 X).
    assert (B : 0 <= INR k / INR (gp - 1) <= 1 \/ k = 0%nat).
    { destruct (Nat.eq_dec k 0) as [|Nk]; [right; assumption|left]. assert (0 < INR (gp - 1)) by (apply lt_0_INR; lia). pose proof (pos_INR k). assert (INR k <= INR (gp - 1)) by (apply le_INR; lia). split.
      - apply Rmult_le_pos; [lra|]. left. apply Rinv_0_lt_compat. assumption.
      - apply Rmult_le_reg_r with (INR (gp - 1)); [assumption|]. unfold Rdiv. rewrite Rmult_assoc, Rinv_l by lra. lra. }
    destruct B as [B| ->]; [|reflexivity]. set (r := INR k / INR (gp - 1)) in *. set (lo := fst (nth j bounds (0, 0))). set (hi := snd (nth j bounds (0, 0))).
    unfold grid_coordinate. destruct (k =? 0)%nat; [reflexivity|].
    assert (Q : (if Rlt_dec x lo then x else lo + r * (Rmin (Rmax x lo) hi - lo)) <= x).
    { destruct (Rlt_dec x lo); [lra|]. rewrite (Rmax_left x lo) by lra. pose proof (Rmin_l x hi). set (c := Rmin x hi) in *. destruct (Rle_dec lo c); nra. }
    rewrite (Rmax_right _ x Q). destruct (k =? gp - 1)%nat; [destruct (Rlt_dec hi x)|]; reflexivity. }
  rewrite !P by lia. apply gap_self.
Qed.
Print Assumptions C42_one_dimensional_start.
(** One latent variable, item entropies monotone between start and score. *)
Theorem C42_one_dimensional_exact (E : R -> list R) gp t s lo hi n :
  (2 <= gp)%nat -> s <= t -> lo <= hi -> coordinatewise_monotone E n s t ->
  bit_score_1d (fun v => E (nth 0 v 0)) gp [t] [s] [(lo, hi)] = gap (E s) (E t).
Proof. apply score_1d_equal. Qed.
Print Assumptions C42_one_dimensional_exact.
(** A single grid point is accepted, and then every one-dimensional score is zero. *)
Theorem C42_single_point_refuted ent theta start bounds lv :
  bit_check 1 true lv (Some lv) false false = Ok tt /\ bit_score_1d ent 1 theta start bounds = 0.
Proof.
  split; [cbn; rewrite Nat.eqb_refl; reflexivity|]. unfold bit_score_1d. rewrite rsum_changes, (variation_sum _ _ []), path_length. reflexivity.
Qed.
Print Assumptions C42_single_point_refuted.

(** The score of a respondent depends on who else is in the batch: beyond the end of the grid, the other scores are the
    only points between.  For a two-category logistic item of difficulty 7.5 and every grid size. *)
Definition entropy_2pl (t : list R) : list R := [bits [1 - logistic (nth 0 t 0 - 15 / 2); logistic (nth 0 t 0 - 15 / 2)]].
Theorem C42_batch_refuted gp : (2 <= gp)%nat ->
  exists alone together other, bit_transform entropy_2pl gp [1] [-10000] [[8]] = [[alone]] /\
    bit_transform entropy_2pl gp [1] [-10000] [[8]; [15 / 2]] = [[together; other]] /\ alone < together.
Proof.
  intros G. set (ent := fun t => entropy_2pl (zip_with Rmult t [1])).
  assert (U : forall c, bit_transform entropy_2pl gp [1] [-10000] (map (fun x => [x]) c) = [bit_scores_variable ent gp [0] 0 (-7) 7 (-10000 * 1) (map (fun x => Rmax (x * 1) (-10000 * 1)) c)]).
  { intros c. unfold bit_transform, bit_scores. cbn [length seq map zip_with repeat nth fst snd]. f_equal. f_equal. unfold column. rewrite !map_map. reflexivity. }
  pose proof (U [8]) as U1. pose proof (U [8; 15 / 2]) as U2. cbn [map] in U1, U2. rewrite U1, U2. rewrite !Rmult_1_r, !Rmax_left by lra.
  destruct (batch_difference ent gp [0] 0 (-7) 7 (-10000) (15 / 2) 8 G ltac:(lra) ltac:(lra) ltac:(lra) ltac:(lra)) as (alone & A & T).
  pose proof (bit_variable_length ent gp [0] 0 (-7) 7 (-10000) [8; 15 / 2] ltac:(lia)) as L.
  destruct (bit_scores_variable ent gp [0] 0 (-7) 7 (-10000) [8; 15 / 2]) as [|w [|z [|]]]; try discriminate L. exists alone, w, z. rewrite A.
  split; [reflexivity|]. split; [reflexivity|]. cbn [nth_error] in T. apply some_inj in T. rewrite T. clear T.
  assert (V : forall v, ent (upd 0 v [0]) = [bits [1 - logistic (v - 15 / 2); logistic (v - 15 / 2)]]) by (intros v; unfold ent, entropy_2pl; cbn [upd zip_with nth]; rewrite Rmult_1_r; reflexivity).
  rewrite !V. unfold gap. cbn [zip_with rsum].
  assert (E1 : bits [1 - logistic (15 / 2 - 15 / 2); logistic (15 / 2 - 15 / 2)] = 1).
  { replace (15 / 2 - 15 / 2) with 0 by ring. replace (logistic 0) with (1 / 2) by (unfold logistic; rewrite Ropp_0, exp_0; lra). replace (1 - 1 / 2) with (1 / 2) by lra. apply bits_half. }
  assert (E2 : bits [1 - logistic (8 - 15 / 2); logistic (8 - 15 / 2)] = bits [1 - logistic (7 - 15 / 2); logistic (7 - 15 / 2)]).
  { replace (7 - 15 / 2) with (- (8 - 15 / 2)) by lra. replace (logistic (- (8 - 15 / 2))) with (1 - logistic (8 - 15 / 2)) by (rewrite logistic_compl; unfold logistic; rewrite Ropp_involutive; reflexivity). set (p := logistic (8 - 15 / 2)). replace (1 - (1 - p)) with p by ring. apply bits_flip. }
  assert (E3 : bits [1 - logistic (7 - 15 / 2); logistic (7 - 15 / 2)] < 1).
  { pose proof (logistic_bounds (7 - 15 / 2)). apply bits_less; [lra|]. intros Z. assert (logistic (7 - 15 / 2) < logistic 0) by (apply logistic_incr; lra). replace (logistic 0) with (1 / 2) in * by (unfold logistic; rewrite Ropp_0, exp_0; lra). lra. }
  rewrite E1, E2. set (e := bits [1 - logistic (7 - 15 / 2); logistic (7 - 15 / 2)]) in *. rewrite (Rabs_right (1 - e)), (Rabs_left (e - 1)), (Rminus_eq_0 e), Rabs_R0 by lra. lra.
Qed.
Print Assumptions C42_batch_refuted.
(** What happens in general beyond the end of the grid: the other score contributes its detour. *)
Theorem C42_batch ent gp medians j lo hi start a b : (2 <= gp)%nat -> lo <= hi -> start <= hi -> hi < a -> a < b ->
  exists alone, bit_scores_variable ent gp medians j lo hi start [b] = [alone] /\
  nth_error (bit_scores_variable ent gp medians j lo hi start [b; a]) 0 =
    Some (alone + (gap (ent (upd j hi medians)) (ent (upd j a medians)) + gap (ent (upd j a medians)) (ent (upd j b medians)) - gap (ent (upd j hi medians)) (ent (upd j b medians)))).
Proof. apply batch_difference. Qed.
Print Assumptions C42_batch.
(** Two latent variables, three respondents, an entropy increasing in each score. *)
Example C42_nonvacuous : let ent := fun t => [nth 0 t 0 + 2 * nth 1 t 0; nth 1 t 0] in
  (1 <= 5)%nat /\ length [1; -1] = length [-3; 4] /\ (forall t, In t [[0; 1]; [2; -5]; [9; 9]] -> length t = length [-3; 4]) /\ (forall t, length (ent t) = 2%nat) /\
  coordinatewise_monotone (fun v => ent (zip_with Rmult (upd 1 v (repeat 0 2)) [1; -1])) 2 (4 * -1) (Rmax (-5 * -1) (4 * -1)) /\ Forall2 Rle [-3; 4] [2; 5].
Proof.
  cbv zeta. split; [lia|]. split; [reflexivity|]. split; [intros t [<-|[<-|[<-|[]]]]; reflexivity|]. split; [reflexivity|]. split; [|repeat constructor; lra].
  split; [reflexivity|]. intros [|[|i]] Hi; try lia; right; intros x y _ H _; cbn; lra.
Qed.

(** ** C43 *)
Theorem C43_interpolation xs ys news : length xs = length ys -> (2 <= length xs)%nat -> NoDup xs ->
  exists out, interp news xs ys = Ok out /\ length out = length news /\
  forall i v, nth_error news i = Some v -> exists r, nth_error out i = Some (Some (Fin r)) /\
    (forall y, In (v, y) (combine xs ys) -> r = y) /\
    (forall a ya b yb, In (a, ya) (combine xs ys) -> In (b, yb) (combine xs ys) -> a < b -> (forall c, In c xs -> c <= a \/ b <= c) ->
       (a <= v \/ (forall c, In c xs -> a <= c)) -> (v <= b \/ (forall c, In c xs -> c <= b)) ->
       r = line a ya b yb v /\ (a <= v <= b -> Rmin ya yb <= r <= Rmax ya yb)).
Proof.
  intros L N ND. assert (G : exists g, forall v, F xs ys v = Ok (Some (Fin (g v)))).
  { exists (fun v => match F xs ys v with Ok (Some (Fin r)) => r | _ => 0 end). intros v. destruct (F_cell xs ys L N ND v) as (k & _ & E). rewrite E. reflexivity. }
  destruct G as (g & G). exists (map (fun v => Some (Fin (g v))) news). split; [|split; [apply map_length|]].
  - rewrite interp_pointwise by assumption. apply mapM_total. intros v _. exact (G v).
  - intros i v V. exists (g v). split; [rewrite nth_error_map, V; reflexivity|]. split.
    + intros y I. pose proof (F_point xs ys L N ND v y I) as P. rewrite G in P. congruence.
    + intros a ya b yb Ia Ib AB Adj Va Vb. pose proof (F_line xs ys L N ND a ya b yb v Ia Ib AB Adj Va Vb) as P. rewrite G in P. injection P as P. split; [exact P|]. intros Hv. rewrite P. unfold line.
      assert (W : 0 <= (v - a) / (b - a) <= 1).
      { split; [apply Rmult_le_pos; [lra|]; left; apply Rinv_0_lt_compat; lra|]. apply Rmult_le_reg_r with (b - a); [lra|]. unfold Rdiv. rewrite Rmult_assoc, Rinv_l by lra. lra. }
      replace (ya + (yb - ya) / (b - a) * (v - a)) with (ya + (v - a) / (b - a) * (yb - ya)) by (field; lra). set (w := (v - a) / (b - a)) in *.
      unfold Rmin, Rmax. destruct (Rle_dec ya yb); split; nra.
Qed.
Print Assumptions C43_interpolation.
(** Nondecreasing points give a nondecreasing function, also outside the range. *)
Theorem C43_monotone xs ys v w : length xs = length ys -> (2 <= length xs)%nat -> NoDup xs ->
  (forall a ya b yb, In (a, ya) (combine xs ys) -> In (b, yb) (combine xs ys) -> a <= b -> ya <= yb) -> v <= w ->
  exists p q, interp [v; w] xs ys = Ok [Some (Fin p); Some (Fin q)] /\ p <= q.
Proof.
  intros L N ND Y V. destruct (F_mono xs ys L N ND v w Y V) as (p & q & P & Q & H). exists p, q. split; [|exact H].
  rewrite interp_pointwise by assumption. unfold F in P, Q. cbn [mapM bind]. rewrite P. cbn [bind]. rewrite Q. reflexivity.
Qed.
Print Assumptions C43_monotone.
(** The order in which the points are given does not matter. *)
Theorem C43_order xs ys xs' ys' news : length xs = length ys -> length xs' = length ys' -> (2 <= length xs)%nat -> NoDup xs ->
  Permutation (combine xs ys) (combine xs' ys') -> interp news xs ys = interp news xs' ys'.
Proof.
  intros L L' N ND P. assert (PX : Permutation xs xs') by (rewrite <- (map_fst_combine xs ys L), <- (map_fst_combine xs' ys' L'); apply Permutation_map; exact P).
  assert (Ln : length xs' = length xs) by (symmetry; apply Permutation_length; exact PX). assert (ND' : NoDup xs') by (eapply Permutation_NoDup; eassumption).
  assert (S : sort_points xs ys = sort_points xs' ys').
  { apply (sorted_perm_eq' (sort_points xs ys) (sort_points xs' ys')); [apply points_strict; assumption|apply points_strict; [exact L'|exact ND']|].
    rewrite points_perm, points_perm. exact P. }
  rewrite !interp_pointwise by (try assumption; lia). rewrite S. reflexivity.
Qed.
Print Assumptions C43_order.
Example C43_nonvacuous : NoDup [3; 1; 2] /\ (forall a ya b yb, In (a, ya) (combine [3; 1; 2] [5; 0; 0]) -> In (b, yb) (combine [3; 1; 2] [5; 0; 0]) -> a <= b -> ya <= yb) /\
  Permutation (combine [3; 1; 2] [5; 0; 0]) (combine [1; 3; 2] [0; 5; 0]).
Proof.
  split; [repeat constructor; cbn; intuition lra|]. split.
  - intros a ya b yb Ha Hb. cbn in Ha, Hb. destruct Ha as [E|[E|[E|[]]]], Hb as [E'|[E'|[E'|[]]]]; injection E as <- <-; injection E' as <- <-; intros; lra.
  - apply perm_swap.
Qed.

(** ** C44 *)
(** The fraction at a value is the average rank of the nearest training value over n + 1 (of two equally near values the
    smaller), strictly inside (0, 1), and at a training value the average rank of that value. *)
Theorem C44_fraction col x : col <> [] -> exists f v, rank_fraction col x = Ok f /\ In v col /\
  (forall w, In w col -> Rabs (v - x) <= Rabs (w - x) /\ (Rabs (v - x) = Rabs (w - x) -> v <= w)) /\
  f = average_rank v col / INR (length col + 1) /\ 0 < 1 / INR (length col + 1) <= f /\ f <= INR (length col) / INR (length col + 1) < 1 /\
  (In x col -> f = average_rank x col / INR (length col + 1)).
Proof.
  intros Ne. destruct (fraction_spec col x Ne) as (v & E & I & M). exists (average_rank v col / INR (length col + 1)), v. split; [exact E|]. split; [exact I|]. split; [exact M|]. split; [reflexivity|].
  destruct (fraction_bounds col x _ E) as [B1 B2]. assert (P : 0 < INR (length col + 1)) by (apply lt_0_INR; lia). split; [split; [|exact B1]|split].
  - unfold Rdiv. rewrite Rmult_1_l. apply Rinv_0_lt_compat. exact P.
  - split; [exact B2|]. apply Rmult_lt_reg_r with (INR (length col + 1)); [exact P|]. unfold Rdiv. rewrite Rmult_assoc, Rinv_l by lra. rewrite plus_INR. cbn [INR]. lra.
  - intros Ix. pose proof (fraction_training col x Ix) as E'. rewrite E in E'. congruence.
Qed.
Print Assumptions C44_fraction.
Theorem C44_order col x y fx fy : rank_fraction col x = Ok fx -> rank_fraction col y = Ok fy ->
  (x <= y -> fx <= fy) /\ (In x col -> In y col -> x < y -> fx < fy) /\ (x = y -> fx = fy).
Proof.
  intros Ex Ey. split; [apply fraction_mono with col; assumption|]. split; [|intros ->; congruence].
  intros Ix Iy H. rewrite fraction_training in Ex by exact Ix. rewrite fraction_training in Ey by exact Iy. injection Ex as <-. injection Ey as <-. pose proof (average_rank_strict x y col Ix Iy H).
  apply Rmult_lt_compat_r; [apply Rinv_0_lt_compat, lt_0_INR; lia|]. lra.
Qed.
Print Assumptions C44_order.
(** The whole transformation: each score goes through the ranks of its own column and the quantile function of its own
    distribution; with nondecreasing quantile functions it is nondecreasing in every score. *)
Theorem C44_transform data icdfs theta : data <> [] -> length icdfs = length theta ->
  exists out, rank_transform data icdfs theta = Ok out /\ length out = length theta /\
  forall j x q, nth_error theta j = Some x -> nth_error icdfs j = Some q -> exists f, rank_fraction (column 0 j data) x = Ok f /\ 0 < f < 1 /\ nth_error out j = Some (q f).
Proof.
  intros Ne L. assert (Nc : forall j, column 0 j data <> []) by (intros j; unfold column; destruct data; [congruence|discriminate]).
  pose (g := fun j x => match rank_fraction (column 0 j data) x with Ok f => f | Err _ => 0 end).
  assert (G : forall j x, rank_fraction (column 0 j data) x = Ok (g j x)) by (intros j x; unfold g; destruct (fraction_spec (column 0 j data) x (Nc j)) as (v & E & _); rewrite E; reflexivity).
  exists (mapi (fun j x => nth j icdfs (fun z => z) (g j x)) theta). split; [|split; [apply mapi_length|]].
  - unfold rank_transform. apply mapiM_total. intros j x X. destruct (nth_error icdfs j) as [q|] eqn:Q; [|apply nth_error_None in Q; assert (j < length theta)%nat by (apply nth_error_Some; congruence); lia].
    rewrite G. cbn [bind]. rewrite (nth_error_nth _ _ _ Q). reflexivity.
  - intros j x q X Q. exists (g j x). split; [apply G|]. split.
    + destruct (C44_fraction (column 0 j data) x (Nc j)) as (f & v & E & _ & _ & _ & B1 & B2 & _). rewrite G in E. injection E as ->. lra.
    + rewrite nth_error_mapi, X. cbn [option_map]. rewrite (nth_error_nth _ _ _ Q). reflexivity.
Qed.
Print Assumptions C44_transform.
Theorem C44_distributions {D} (normal : D) lv ds :
  match rank_distributions normal lv ds with
  | Ok l => length l = lv /\ (ds = None -> l = repeat normal lv) /\ (forall d, ds = Some [d] -> l = repeat d lv) /\ (forall l', ds = Some l' -> length l' = lv -> (lv <> 1)%nat -> l = l')
  | Err e => e = ValueError /\ exists l', ds = Some l' /\ length l' <> lv /\ length l' <> 1%nat
  end.
Proof.
  unfold rank_distributions. destruct ds as [l|].
  - destruct (Nat.eqb_spec lv (length l)) as [E|E], (Nat.eqb_spec (length l) 1) as [E1|E1]; cbn [negb andb].
    + destruct l as [|d [|]]; try discriminate E1. cbn in E. subst lv. split; [reflexivity|]. split; [discriminate|]. split; [intros d' H; congruence|]. intros; congruence.
    + destruct l as [|d [|d' l]]; [| cbn in E1; congruence|]; (split; [congruence|]; split; [discriminate|]; split; [intros d0 H; discriminate H|]; intros; congruence).
    + destruct l as [|d [|]]; try discriminate E1. split; [apply repeat_length|]. split; [discriminate|]. split; [intros d' H; congruence|]. intros l' H H' _. injection H as <-. cbn in E, H'. congruence.
    + split; [reflexivity|]. exists l. split; [reflexivity|]. split; [congruence|exact E1].
  - split; [apply repeat_length|]. split; [reflexivity|]. split; intros; discriminate.
Qed.
Print Assumptions C44_distributions.
(** A sample with a tie. *)
Example C44_nonvacuous : average_rank 2 [2; 5; 2; 1] = 5 / 2 /\ rank_fraction [2; 5; 2; 1] 2 = Ok (1 / 2).
Proof.
  assert (A : average_rank 2 [2; 5; 2; 1] = 5 / 2).
  { unfold average_rank. replace (below 2 [2; 5; 2; 1]) with 1%nat; [replace (equal_to 2 [2; 5; 2; 1]) with 2%nat; [cbn; lra|]|].
    - rewrite !equal_cons. unfold equal_to. repeat match goal with |- context [Req_EM_T ?a ?b] => destruct (Req_EM_T a b); [try lra|try lra] end. reflexivity.
    - rewrite !below_cons. unfold below. repeat match goal with |- context [Rlt_dec ?a ?b] => destruct (Rlt_dec a b); [try lra|try lra] end. reflexivity. }
  split; [exact A|]. rewrite fraction_training by (left; reflexivity). rewrite A. cbn. f_equal. field.
Qed.

(** ** C45 *)
(** After construction and any sequence of assignments the fence factor is not below 1; a value below 1 is refused and
    changes nothing. *)
Definition assign_all (f : fl) (ops : list (attribute * fl)) : fl := fold_left (fun f op => fst (set_attribute f (fst op) (snd op))) ops f.
Theorem C45_factor v0 f0 ops : detector_new v0 = Ok f0 ->
  (forall r, assign_all f0 ops = Some (Fin r) -> 1 <= r) /\ assign_all f0 ops <> Some NInf /\
  (forall f r, r < 1 -> set_attribute f Factor (Some (Fin r)) = (f, Err ValueError)).
Proof.
  intros H. assert (I : flt (assign_all f0 ops) (Some (Fin 1)) = false).
  { assert (I0 : flt f0 (Some (Fin 1)) = false) by (unfold detector_new in H; destruct (flt v0 (Some (Fin 1))) eqn:E; [discriminate|congruence]). clear H. revert f0 I0. induction ops as [|[a v] ops IH]; intros f0 I0; [exact I0|].
    cbn. apply IH. destruct a; cbn; [|exact I0]. destruct (flt v (Some (Fin 1))) eqn:E; cbn; assumption. }
  split; [|split].
  - intros r E. rewrite E in I. cbn in I. destruct (Rlt_dec r 1); [discriminate|lra].
  - intros E. rewrite E in I. discriminate.
  - intros f r Hr. cbn. destruct (Rlt_dec r 1); [reflexivity|lra].
Qed.
Print Assumptions C45_factor.
(** NaN is accepted as a factor. *)
Theorem C45_nan_refuted f : detector_new None = Ok None /\ set_attribute f Factor None = (None, Ok tt).
Proof. split; reflexivity. Qed.
Print Assumptions C45_nan_refuted.
(** Quartiles [q1 <= q3]; the limits are finite data values inside the fences, extreme among those inside. *)
Theorem C45_limits factor col : col <> [] -> 1 <= factor -> exists q1 q3 small large,
  quartile 1 col = Ok q1 /\ quartile 3 col = Ok q3 /\ q1 <= q3 /\
  let lower := q1 - factor * (q3 - q1) in let upper := q3 + factor * (q3 - q1) in
  limit_non_outlier factor col true = Ok (Fin small) /\ limit_non_outlier factor col false = Ok (Fin large) /\
  In small col /\ In large col /\ lower <= small /\ large <= upper /\ small <= large /\
  forall y, In y col -> (lower <= y <= upper <-> small <= y <= large).
Proof.
  intros Ne Hf. destruct (fences_value factor col Ne) as (q1 & q3 & E1 & E3 & O & E). destruct (limit_value factor col true Ne Hf) as (a & b & small & F1 & L1 & I1 & W1 & M1). destruct (limit_value factor col false Ne Hf) as (a' & b' & large & F2 & L2 & I2 & W2 & M2).
  rewrite E in F1, F2. injection F1 as <- <-. injection F2 as <- <-. cbv beta iota in M1, M2. exists q1, q3, small, large. split; [exact E1|]. split; [exact E3|]. split; [exact O|]. cbv zeta.
  split; [exact L1|]. split; [exact L2|]. split; [exact I1|]. split; [exact I2|]. split; [lra|]. split; [lra|]. split; [apply M1; assumption|]. intros y Iy. split; [intros W; split; [apply M1|apply M2]; assumption|lra].
Qed.
Print Assumptions C45_limits.
(** Classification of new values and of the data. *)
Theorem C45_outliers factor news col upper lower : col <> [] -> upper || lower = true -> exists a b out,
  fences factor col = Ok (a, b) /\ is_outlier factor news col upper lower = Ok out /\ length out = length news /\
  forall i x, nth_error news i = Some x -> exists o, nth_error out i = Some o /\ (o = true <-> (lower = true /\ x < a) \/ (upper = true /\ b < x)).
Proof.
  intros Ne U. destruct (fences_value factor col Ne) as (q1 & q3 & _ & _ & _ & E). exists (q1 - factor * (q3 - q1)), (q3 + factor * (q3 - q1)), (map (outside upper lower (q1 - factor * (q3 - q1), q3 + factor * (q3 - q1))) news).
  split; [exact E|]. split; [|split; [apply map_length|]].
  - unfold is_outlier. rewrite E. destruct upper, lower; try discriminate U; reflexivity.
  - intros i x X. eexists. split; [rewrite nth_error_map, X; reflexivity|apply outside_spec].
Qed.
Print Assumptions C45_outliers.
Theorem C45_errors factor news col : is_outlier factor news col false false = Err ValueError /\
  forall n m, columns_match n m = Err ValueError <-> n <> m.
Proof. split; [reflexivity|]. intros n m. unfold columns_match. destruct (Nat.eqb_spec n m); split; intros; congruence. Qed.
Print Assumptions C45_errors.
(** Five values, one of them far away: the largest non-outlier is not the maximum. *)
Example C45_nonvacuous : quartile 1 [3; 1; 100; 2; 4] = Ok 2 /\ quartile 3 [3; 1; 100; 2; 4] = Ok 4 /\ 4 + 1 * (4 - 2) < 100.
Proof.
  assert (S : sort_r [3; 1; 100; 2; 4] = [1; 2; 3; 4; 100]).
  { cbn. repeat (match goal with |- context [Rle_dec ?a ?b] => destruct (Rle_dec a b); [try (exfalso; lra)|try (exfalso; lra)] end; cbn). reflexivity. }
  unfold quartile. rewrite S. cbn. split; [f_equal; field|]. split; [f_equal; field|]. lra.
Qed.

(** ** C73 *)
(** With all items selected, the reported derivative is the direction times the sum of the absolute derivatives of the
    item entropies in bits. *)
Theorem C73_derivative mult t (P : list (list (R -> R))) grads :
  Forall2 (fun ps ds => Forall2 (regular_category t) ps ds /\ rsum ds = 0) P grads ->
  exists dE, Forall2 (fun ps d => derivable_pt_lim (fun x => bits (map (fun Q => Q x) ps)) t d) P dE /\
    bit_jacobian mult (seq 0 (length grads)) (map (map (fun Q => Q t)) P) grads = Ok (Some (Fin (mult * rsum (map Rabs dE)))).
Proof. apply jacobian_all. Qed.
Print Assumptions C73_derivative.
(** With some but not all items selected it fails, unless a single item is selected. *)
Theorem C73_items_refuted mult items probs grads :
  (forall i, In i items -> (i < length grads)%nat) -> (1 < length items)%nat -> (1 < length probs)%nat -> length items <> length probs ->
  bit_jacobian mult items probs grads = Err RuntimeError.
Proof. apply jacobian_subset. Qed.
Print Assumptions C73_items_refuted.
(** Selecting a single item uses the probabilities of the other items too: an item whose entropy has derivative zero is
    reported with a positive one. *)
Theorem C73_single_item_refuted : let probs := [[1 / 4; 3 / 4]; [1 / 2; 1 / 2]] in let grads := [[-1; 1]; [-1; 1]] in
  item_bit_gradient (nth 1 probs []) (nth 1 grads []) = Some (Fin 0) /\ exists d, bit_jacobian 1 [1%nat] probs grads = Ok (Some (Fin d)) /\ 0 < d.
Proof.
  cbv zeta. assert (L2 : 0 < ln 2) by (pose proof ln_lt_2; lra).
  assert (G1 : item_bit_gradient [1 / 2; 1 / 2] [-1; 1] = Some (Fin 0)).
  { rewrite item_gradient_value by (constructor; [left; lra|constructor; [left; lra|constructor]]). cbn [zip_with rsum]. destruct (Req_EM_T (1 / 2) 0); [lra|]. do 2 f_equal.
    replace (ln (1 / 2) / ln 2 * -1 + (ln (1 / 2) / ln 2 * 1 + 0)) with 0 by ring. apply Rabs_R0. }
  split; [exact G1|]. unfold bit_jacobian, select, broadcast. cbn [mapM nth_error bind length Nat.eqb map]. rewrite G1.
  rewrite item_gradient_value by (constructor; [left; lra|constructor; [left; lra|constructor]]). cbn [zip_with rsum]. destruct (Req_EM_T (1 / 4) 0); [lra|]. destruct (Req_EM_T (3 / 4) 0); [lra|].
  cbn [fsum fold_right]. rewrite !fadd_fin, fmul_fin. eexists. split; [reflexivity|].
  assert (Ln : ln (1 / 4) < ln (3 / 4)) by (apply ln_increasing; lra). assert (ln (1 / 4) / ln 2 < ln (3 / 4) / ln 2) by (apply Rmult_lt_compat_r; [apply Rinv_0_lt_compat|]; assumption).
  rewrite Rabs_right by lra. lra.
Qed.
Print Assumptions C73_single_item_refuted.
(** A two-category and a one-category item padded to two categories. *)
Example C73_nonvacuous : Forall2 (fun ps ds => Forall2 (regular_category 0) ps ds /\ rsum ds = 0)
  [[(fun x => 1 / 2 - x); (fun x => 1 / 2 + x)]; [(fun _ => 1); (fun _ => 0)]] [[-1; 1]; [0; 0]].
Proof.
  assert (D1 : derivable_pt_lim (fun x => 1 / 2 - x) 0 (-1)) by (replace (-1) with (0 - 1) by ring; apply (derivable_pt_lim_minus (fun _ => 1 / 2) (fun x => x)); [apply derivable_pt_lim_const|apply derivable_pt_lim_id]).
  assert (D2 : derivable_pt_lim (fun x => 1 / 2 + x) 0 1) by (pose proof (derivable_pt_lim_plus (fun _ => 1 / 2) (fun x => x) 0 0 1 (derivable_pt_lim_const _ 0) (derivable_pt_lim_id 0)) as Z; rewrite Rplus_0_l in Z; exact Z).
  constructor; [split; [|cbn; ring]|constructor; [split; [|cbn; ring]|constructor]].
  - constructor; [split; [exact D1|right; lra]|constructor; [split; [exact D2|right; lra]|constructor]].
  - constructor; [split; [apply derivable_pt_lim_const|right; lra]|constructor; [split; [apply derivable_pt_lim_const|left; reflexivity]|constructor]].
Qed.

(** ** C74 *)
(** The transformed values are the normal quantiles of 1/(n+1) .. n/(n+1) in the order of the data. *)
Theorem C74_quantiles icdf l : 
  Permutation (quantile_transform icdf l) (map (fun k => icdf (INR (k + 1) / INR (length l + 1))) (seq 0 (length l))) /\
  forall i v, nth_error l i = Some v -> exists k, (below v l <= k < below v l + equal_to v l)%nat /\ nth_error (quantile_transform icdf l) i = Some (icdf (INR (k + 1) / INR (length l + 1))).
Proof. split; [apply quantile_perm|]. intros i v H. destruct (quantile_nth icdf l i v H) as (k & _ & A & B). exists k. split; assumption. Qed.
Print Assumptions C74_quantiles.
Theorem C74_order icdf l i j v w a b : (forall p q, 0 < p -> p < q -> q < 1 -> icdf p < icdf q) ->
  nth_error l i = Some v -> nth_error l j = Some w -> v < w ->
  nth_error (quantile_transform icdf l) i = Some a -> nth_error (quantile_transform icdf l) j = Some b -> a < b.
Proof.
  intros Inc V W H A B. destruct (quantile_nth icdf l i v V) as (k & _ & Ka & A'). destruct (quantile_nth icdf l j w W) as (m & _ & Kb & B'). rewrite A in A'. rewrite B in B'. injection A' as ->. injection B' as ->.
  pose proof (below_lt v w l H). pose proof (below_equal_le w l). assert (P : 0 < INR (length l + 1)) by (apply lt_0_INR; lia). pose proof (Rinv_0_lt_compat _ P).
  apply Inc.
  - apply Rmult_lt_0_compat; [apply lt_0_INR; lia|assumption].
  - apply Rmult_lt_compat_r; [assumption|]. apply lt_INR. lia.
  - apply Rmult_lt_reg_r with (INR (length l + 1)); [exact P|]. unfold Rdiv. rewrite Rmult_assoc, Rinv_l by lra. rewrite Rmult_1_r, Rmult_1_l. apply lt_INR. lia.
Qed.
Print Assumptions C74_order.
(** Without ties the density is evaluated, at a row of the training data, at the transformed row. *)
Theorem C74_training_point icdf lv data i row : (2 <= length data)%nat -> (forall j, (j < lv)%nat -> NoDup (column 0 j data)) -> nth_error data i = Some row ->
  exists out, qmvn_point icdf lv data row = Ok out /\ length out = lv /\
  forall j, (j < lv)%nat -> exists z, nth_error (quantile_transform icdf (column 0 j data)) i = Some z /\ nth_error out j = Some (Some (Fin z)).
Proof.
  intros N ND R0. set (z := fun j => nth i (quantile_transform icdf (column 0 j data)) 0).
  assert (Li : (i < length data)%nat) by (apply nth_error_Some; congruence).
  assert (Lq : forall j, length (quantile_transform icdf (column 0 j data)) = length data) by (intros j; unfold quantile_transform; rewrite map_length, ranks_length; unfold column; apply map_length).
  assert (Z : forall j, nth_error (quantile_transform icdf (column 0 j data)) i = Some (z j)) by (intros j; apply nth_error_nth'; rewrite Lq; exact Li).
  assert (P : forall j, (j < lv)%nat -> interp [nth j row 0] (column 0 j data) (quantile_transform icdf (column 0 j data)) = Ok [Some (Fin (z j))]).
  { intros j Hj. assert (Lc : length (column 0 j data) = length data) by (unfold column; apply map_length).
    destruct (C43_interpolation (column 0 j data) (quantile_transform icdf (column 0 j data)) [nth j row 0]) as (out & E & Lo & V); [rewrite Lq, Lc; reflexivity|lia|apply ND; exact Hj|].
    destruct (V 0%nat (nth j row 0) eq_refl) as (r & O & Pt & _). destruct out as [|o [|]]; try discriminate Lo. cbn in O. injection O as ->. rewrite E. do 4 f_equal. apply Pt.
    apply nth_error_In with i. apply P_Logit3.nth_error_combine_some; [unfold column; rewrite nth_error_map, R0; reflexivity|apply Z]. }
  exists (map (fun j => Some (Fin (z j))) (seq 0 lv)). split; [|split; [rewrite map_length, seq_length; reflexivity|]].
  - unfold qmvn_point. apply mapM_total. intros j Hj. apply in_seq in Hj. rewrite P by lia. reflexivity.
  - intros j Hj. exists (z j). split; [apply Z|]. rewrite nth_error_map, nth_error_seq by exact Hj. reflexivity.
Qed.
Print Assumptions C74_training_point.
(** Tied values get different transformed values, and with a tie at the smallest value the density is evaluated at minus
    infinity for every smaller score, however near. *)
Theorem C74_ties_refuted icdf : icdf (1 / 4) < icdf (1 / 2) ->
  let data := [0; 0; 1] in
  quantile_transform icdf data = [icdf (1 / 4); icdf (1 / 2); icdf (3 / 4)] /\
  forall v, v < 0 -> interp [v] data (quantile_transform icdf data) = Ok [Some NInf].
Proof.
  intros H data. assert (Q : quantile_transform icdf data = [icdf (1 / 4); icdf (1 / 2); icdf (3 / 4)]).
  { unfold quantile_transform, ranks, argsort_r, sort_indexed, data. cbn [length seq combine sort_by fold_right insert_by fst]. rewrite !rleb_true by lra. cbn [insert_by fst map snd]. rewrite !rleb_true by lra. cbn [map snd].
    replace (argsort_n [0; 1; 2]%nat) with [0; 1; 2]%nat by reflexivity. cbn [map Nat.add length]. cbn [INR]. f_equal; [f_equal; lra|]. f_equal; [f_equal; lra|]. f_equal. f_equal. lra. }
  split; [exact Q|]. intros v Hv. rewrite Q. unfold interp, data. cbn [length Nat.eqb].
  assert (S : sort_points [0; 0; 1] [icdf (1 / 4); icdf (1 / 2); icdf (3 / 4)] = [(0, icdf (1 / 4)); (0, icdf (1 / 2)); (1, icdf (3 / 4))]).
  { unfold sort_points. cbn [combine sort_by fold_right insert_by fst]. rewrite !rleb_true by lra. cbn [insert_by fst]. rewrite !rleb_true by lra. reflexivity. }
  rewrite S. cbn [map fst snd]. cbn [mapM]. rewrite rleb_false by exact Hv. cbn [andb]. unfold interp_outside. cbn [length Nat.ltb Nat.leb nth]. destruct (Rlt_dec v 0); [|lra]. cbn [bind].
  unfold fdivr, fdiv. destruct (Req_EM_T (0 - 0) 0); [|lra]. set (d := icdf (1 / 2) - icdf (1 / 4)). assert (0 < d) by (unfold d; lra). cbn. destruct (Req_EM_T d 0); [lra|]. destruct (Rlt_dec 0 d); [|lra]. cbn.
  destruct (Req_EM_T (v - 0) 0); [lra|]. destruct (Rlt_dec 0 (v - 0)); [lra|]. reflexivity.
Qed.
Print Assumptions C74_ties_refuted.
Example C74_nonvacuous : (2 <= length [[0; 3]; [1; -2]; [5; 0]]%R)%nat /\ (forall j, (j < 2)%nat -> NoDup (column 0 j [[0; 3]; [1; -2]; [5; 0]])).
Proof. split; [cbn; lia|]. intros [|[|j]] Hj; try lia; cbn; repeat constructor; cbn; intuition lra. Qed.
