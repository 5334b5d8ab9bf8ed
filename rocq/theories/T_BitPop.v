(** Bit scores relative to a population. *)
From Coq Require Import Permutation Sorted.
From Verif Require Import Base BaseFacts RBase RFacts M_Logit M_Mono M_Lik M_Est M_Stat M_Grid S_Grid P_Scale1 P_Grid1 P_Grid3 P_Grid5 P_Max6 S_Bit P_Bit2 P_Bit3 T_Grid T_Bit M_BitPop S_BitPop P_BitPop1 P_BitPop2 P_BitPop3.
Import M_Est List.
Local Open Scope R_scope.

(** ** C125 *)
(** The latent variables in another unit, origin and direction, everything else unchanged: the same bit scores. *)
Theorem C125_units total total' ent ent' gp a b population start thetas :
  length a = length start -> length b = length start -> Forall (fun x => x <> 0) a ->
  Forall (fun r => length r = length start) population -> Forall (fun r => length r = length start) thetas ->
  (forall t, length t = length start -> total' (convert a b t) = total t) ->
  (forall t, length t = length start -> ent' (convert a b t) = ent t) ->
  (forall j, (j < length start)%nat -> rises total (length start) j \/ falls total (length start) j) ->
  bit_transform_population total' ent' gp (map (convert a b) population) (convert a b start) (map (convert a b) thetas) =
    bit_transform_population total ent gp population start thetas /\
  bit_transform_1d_population total' ent' gp (map (convert a b) population) (convert a b start) (map (convert a b) thetas) =
    bit_transform_1d_population total ent gp population start thetas.
Proof.
  intros La Lb Na Hp Ht HT HE HD. set (lv := length start) in *. set (mult := directions total lv). set (mult' := directions total' lv).
  assert (Lc : length (convert a b start) = lv) by (unfold convert; rewrite !zip_with_length; fold lv; lia).
  assert (Lm : length mult = lv) by apply directions_length. assert (Lm' : length mult' = lv) by apply directions_length.
  assert (M1 : forall j, (j < lv)%nat -> nth j mult 0 * nth j mult 0 = 1) by (intros j J; unfold mult; rewrite directions_nth by exact J; apply direction_square).
  assert (M2 : forall j, (j < lv)%nat -> nth j mult' 0 = sg (nth j a 0) * nth j mult 0).
  { intros j J. unfold mult, mult'. rewrite !directions_nth by exact J. apply turned_direction with (b := b); auto. }
  assert (K : bit_transform_population total' ent' gp (map (convert a b) population) (convert a b start) (map (convert a b) thetas) = bit_transform_population total ent gp population start thetas /\
    ((lv =? 1)%nat = false -> bit_transform_1d_population total' ent' gp (map (convert a b) population) (convert a b start) (map (convert a b) thetas) = bit_transform_1d_population total ent gp population start thetas)).
  { unfold bit_transform_population, bit_transform_1d_population. cbv zeta. rewrite Lc. fold lv mult mult'. destruct population as [|r0 population0].
    - unfold population_range. cbn [map]. destruct start as [|x0 start0]; [split; [reflexivity|]|].
      + intros _. cbn. f_equal. rewrite map_map. apply map_ext_in. intros th Ith. unfold bit_score_1d, grid_path. do 2 f_equal. f_equal.
        rewrite Forall_forall in Ht. specialize (Ht th Ith). cbn in Ht. destruct th; [|discriminate]. apply nth_ext with (d := []) (d' := []); [now rewrite !map_length, !mapi_length|].
        intros k Hk. rewrite map_length, mapi_length in Hk. rewrite nth_indep with (d' := ent' (zip_with Rmult [] mult')) by (now rewrite map_length, mapi_length). rewrite (nth_indep _ [] (ent (zip_with Rmult [] mult))) by (now rewrite map_length, mapi_length).
        rewrite (map_nth (fun t => ent' (zip_with Rmult t mult'))), (map_nth (fun t => ent (zip_with Rmult t mult))). rewrite !nth_mapi with (da := 0) by exact Hk. cbn. apply (HE [] eq_refl).
      + rewrite !boundaries_empty; [split; [reflexivity|]; intros ->; reflexivity| |].
        * intro E. apply (f_equal (@length R)) in E. rewrite zip_with_length in E. cbn [length] in E. unfold lv in Lm. cbn [length] in Lm. lia.
        * intro E. apply (f_equal (@length R)) in E. rewrite zip_with_length, Lc in E. cbn [length] in E. unfold lv in *. cbn [length] in *. lia.
    - set (population := r0 :: population0) in *. assert (Np : population <> []) by discriminate. assert (Np' : map (convert a b) population <> []) by discriminate.
      rewrite !range_value by (assumption || (rewrite Lc; assumption)). rewrite Lc. fold lv. cbn [bind].
      assert (HB : forall j, (j < lv)%nat -> nth j (map (fun j => (low (map (adjust mult' (convert a b start)) (map (convert a b) population)) (zip_with Rmult (convert a b start) mult') j, high (map (adjust mult' (convert a b start)) (map (convert a b) population)) j)) (seq 0 lv)) (0, 0) =
        (Rabs (nth j a 0) * fst (nth j (map (fun j => (low (map (adjust mult start) population) (zip_with Rmult start mult) j, high (map (adjust mult start) population) j)) (seq 0 lv)) (0, 0)) + nth j b 0 * nth j mult' 0,
         Rabs (nth j a 0) * snd (nth j (map (fun j => (low (map (adjust mult start) population) (zip_with Rmult start mult) j, high (map (adjust mult start) population) j)) (seq 0 lv)) (0, 0)) + nth j b 0 * nth j mult' 0)).
      { intros j J. rewrite !nth_map_seq0 by exact J. cbn [fst snd]. f_equal; [apply turned_low|apply turned_high]; auto. }
      split.
      + f_equal. apply turned_scores; auto.
      + intros ->. f_equal. rewrite map_map. apply map_ext_in. intros th Ith. rewrite Forall_forall in Ht. apply turned_1d; auto. }
  split; [apply K|]. destruct (lv =? 1)%nat eqn:E1; [|now apply K]. unfold bit_transform_1d_population. cbv zeta. rewrite Lc. fold lv. rewrite E1. now rewrite (proj1 K).
Qed.
Print Assumptions C125_units.
(** The order in which the population is listed does not matter. *)
Theorem C125_population_order total ent gp p q start thetas : Permutation p q ->
  bit_transform_population total ent gp p start thetas = bit_transform_population total ent gp q start thetas /\
  bit_transform_1d_population total ent gp p start thetas = bit_transform_1d_population total ent gp q start thetas.
Proof.
  intro H. assert (E : bit_transform_population total ent gp p start thetas = bit_transform_population total ent gp q start thetas).
  { unfold bit_transform_population. cbv zeta. rewrite (range_same _ _ p q) by (exact H || apply directions_length). now rewrite (medians_same _ _ p q H). }
  split; [exact E|]. unfold bit_transform_1d_population. cbv zeta. rewrite E. now rewrite (range_same _ _ p q) by (exact H || apply directions_length).
Qed.
Print Assumptions C125_population_order.
(** With at least one respondent in the population the range is finite and ordered: it begins at the start or above and
    ends at a score of the population, in the direction of the variable and not below the start. *)
Theorem C125_range total start population j :
  population <> [] -> Forall (fun r => length r = length start) population -> (j < length start)%nat ->
  exists bounds low high row, population_range (directions total (length start)) start population = Ok bounds /\ length bounds = length start /\
    nth_error bounds j = Some (low, high) /\ In row population /\
    let d := direction total (length start) j in
    nth j start 0 * d <= low <= high /\ high = Rmax (nth j row 0 * d) (nth j start 0 * d).
Proof.
  intros Np Hp J. set (mult := directions total (length start)). assert (Lm : length mult = length start) by apply directions_length. rewrite range_value by assumption.
  set (pop := map (adjust mult start) population). set (s := zip_with Rmult start mult). destruct (range_order mult start Lm population j Np Hp J) as (H1 & H2 & H3). fold pop s in H1, H2, H3.
  unfold column, pop in H3. rewrite map_map in H3. apply in_map_iff in H3. destruct H3 as (row & H3 & Ir). pose proof Hp as Hp'. rewrite Forall_forall in Hp'. rewrite adjust_nth in H3 by auto.
  exists (map (fun j => (low pop s j, high pop j)) (seq 0 (length start))), (low pop s j), (high pop j), row. split; [reflexivity|]. split; [now rewrite map_length, seq_length|].
  split; [rewrite nth_error_map; rewrite (nth_error_nth' _ 0%nat) by (now rewrite seq_length); rewrite seq_nth by exact J; reflexivity|]. split; [exact Ir|]. cbv zeta.
  unfold mult in H3. rewrite directions_nth in H3 by exact J. fold pop in H3. split; [|now symmetry]. split; [|exact H2].
  apply Rle_trans with (2 := H1). unfold s, mult. rewrite start_nth by assumption. rewrite directions_nth by exact J. lra.
Qed.
Print Assumptions C125_range.
(** So scores are returned, one column for each variable; each is the sum of absolute entropy changes along points from
    the start to the score, with the other variables at their medians in the population. *)
Theorem C125_scores total ent gp population start thetas :
  (1 <= gp)%nat -> population <> [] -> Forall (fun r => length r = length start) population ->
  exists cols, bit_transform_population total ent gp population start thetas = Ok cols /\ length cols = length start /\
    forall j i theta, (j < length start)%nat -> nth_error thetas i = Some theta -> length theta = length start ->
    let mult := directions total (length start) in
    let s := nth j start 0 * nth j mult 0 in let x := Rmax (nth j theta 0 * nth j mult 0) s in
    exists pts, nth_error (nth j cols []) i = Some (variation (fun v => ent (zip_with Rmult (upd j v (population_medians mult start population)) mult)) pts) /\
      StronglySorted Rlt pts /\ In s pts /\ In x pts /\ Forall (fun y => s <= y <= x) pts.
Proof.
  intros G Np Hp. set (mult := directions total (length start)). assert (Lm : length mult = length start) by apply directions_length. unfold bit_transform_population. cbv zeta. fold mult. rewrite range_value by assumption. cbn [bind].
  set (bounds := map _ (seq 0 (length start))). set (s' := zip_with Rmult start mult). assert (Ls : length s' = length start) by (unfold s'; rewrite zip_with_length; lia).
  eexists. split; [reflexivity|]. split; [unfold bit_scores; rewrite map_length, seq_length; exact Ls|]. intros j i theta J Ti Lt.
  set (s := nth j start 0 * nth j mult 0). set (x := Rmax (nth j theta 0 * nth j mult 0) s).
  assert (X : nth_error (column 0 j (map (adjust mult start) thetas)) i = Some x) by (unfold column; rewrite map_map, nth_error_map, Ti; cbn [option_map]; f_equal; now apply adjust_nth).
  assert (Es : nth j s' 0 = s) by (unfold s'; now apply start_nth). assert (Mx : Rmax x s = x) by (apply Rmax_left; apply Rmax_r).
  destruct (C42_score (fun t => ent (zip_with Rmult t mult)) gp (population_medians mult start population) s' bounds (map (adjust mult start) thetas) j i x G ltac:(lia) X) as (pts & P & Q & I). rewrite Es, Mx in I.
  exists pts. split; [exact P|]. split; [exact Q|]. split; [apply I; split; [apply Rmax_r|now left]|]. split.
  - apply I. split; [lra|]. right. right. exists x. split; [eapply nth_error_In; exact X|now symmetry].
  - apply Forall_forall. intros y Hy. apply I in Hy. destruct Hy as [H1 H2]. apply value_above in H2. lra.
Qed.
Print Assumptions C125_scores.

(** Without a population the range is always -7 to 7: the same test and respondents, with 3 added to every score, get
    other bit scores. *)
Theorem C125_no_population_refuted :
  exists u v, bit_transform (opl_bits [0]) 3 [1] [-1] [[1]] = [[u]] /\ bit_transform (opl_bits [-3]) 3 [1] [-1 + 3] [[1 + 3]] = [[v]] /\
    (forall t, opl_bits [-3] (convert [1] [3] [t]) = opl_bits [0] [t]) /\ v = 0 /\ 0 < u.
Proof.
  assert (E2 : bit_transform (opl_bits [-3]) 3 [1] [-1 + 3] [[1 + 3]] = [[Rabs (Hl (1 + 3 + -3) - Hl (-1 + 3 + -3))]]).
  { apply lone; [lia|lra|]. intros k K. assert (k = 1 \/ k = 2)%nat as [->| ->] by lia; cbv zeta; cbn [INR Nat.sub]; [left|right]; lra. }
  assert (L : bit_transform (opl_bits [0]) 3 [1] [-1] [[1]] = [[gap [Hl (-1)] [Hl 0] + (gap [Hl 0] [Hl 1] + 0)]]).
  { set (entm := fun t => opl_bits [0] (zip_with Rmult t [1])).
    assert (U : bit_transform (opl_bits [0]) 3 [1] [-1] [[1]] = [bit_scores_variable entm 3 [0] 0 (-7) 7 (-1) [1]]).
    { unfold bit_transform, bit_scores. cbn [length seq map zip_with repeat nth fst snd]. f_equal. unfold column, adjust. cbn [map zip_with nth]. rewrite !Rmult_1_r, Rmax_left by lra. reflexivity. }
    rewrite U. f_equal. destruct (C42_score entm 3 [0] [-1] [(-7, 7)] [[1]] 0 0 1 ltac:(lia) ltac:(cbn; lia) eq_refl) as (pts & E & HS & HI). cbn [nth fst snd] in E, HI. unfold bit_scores in E. cbn [length seq map nth fst snd] in E. unfold column in E. cbn [map nth] in E.
    pose proof (bit_variable_length entm 3 [0] 0 (-7) 7 (-1) [1] ltac:(lia)) as Lw. cbn [length] in Lw. destruct (bit_scores_variable entm 3 [0] 0 (-7) 7 (-1) [1]) as [|w [|]]; try discriminate Lw. cbn [nth_error] in E. f_equal. injection E as ->.
    assert (P : pts = [-1; 0; 1]).
    { apply sorted_lt_ext; [exact HS|repeat constructor; lra|]. intro y. rewrite HI, Rmax_left by lra. unfold column. cbn [map nth In]. split.
      - intros [Hy [->|[(k & K & ->)|(c & [<-|[]] & ->)]]]; [now left| |right; right; left; rewrite Rmax_left; lra].
        assert (k = 1 \/ k = 2)%nat as [->| ->] by lia; cbn [INR Nat.sub] in *; [right; left; rewrite Rmax_left; lra|]. exfalso. revert Hy. rewrite Rmax_left; lra.
      - intros [<-|[<-|[<-|[]]]]; (split; [lra|]); [now left| |].
        + right. left. exists 1%nat. split; [lia|]. cbn [INR Nat.sub]. rewrite Rmax_left; lra.
        + right. right. exists 1. split; [now left|]. rewrite Rmax_left; lra. }
    rewrite P. cbn [variation]. unfold entm, opl_bits. cbn [upd zip_with map nth]. rewrite !Rmult_1_r, !Rplus_0_r. reflexivity. }
  exists (gap [Hl (-1)] [Hl 0] + (gap [Hl 0] [Hl 1] + 0)), (Rabs (Hl (1 + 3 + -3) - Hl (-1 + 3 + -3))). split; [exact L|]. split; [exact E2|]. split.
  - intro t. unfold opl_bits, convert. cbn [zip_with map nth]. replace (t * 1 + 3 + -3) with (t + 0) by ring. reflexivity.
  - replace (1 + 3 + -3) with 1 by ring. replace (-1 + 3 + -3) with (- (1)) by ring. rewrite Hl_flip. split; [rewrite Rminus_diag_eq by reflexivity; apply Rabs_R0|].
    unfold gap. cbn [zip_with rsum]. pose proof (Hl_strict (-1) 0 ltac:(lra) ltac:(lra)) as S1. replace (-1) with (- (1)) in * by ring. rewrite Hl_flip in *.
    pose proof (Rabs_pos (Hl 1 - Hl 0)). pose proof (Rle_abs (Hl 0 - Hl 1)). lra.
Qed.
Print Assumptions C125_no_population_refuted.

(** The range of one variable depends on the start of another: if the start of any variable is an outlier of the
    population, the ranges of all variables begin at the smallest score that is none.  Here two items, each measuring one
    variable; the start of the second variable is moved and the score on the first changes. *)
Definition two_items (t : list R) : list R :=
  [bits [1 - logistic (nth 0 t 0); logistic (nth 0 t 0)]; bits [1 - logistic (nth 1 t 0); logistic (nth 1 t 0)]].
Definition two_total (t : list R) : R := logistic (nth 0 t 0) + logistic (nth 1 t 0).
Lemma two_rises j : (j < 2)%nat -> rises two_total 2 j.
Proof.
  intros J [|t0 [|t1 [|]]] x y L H; try discriminate L. unfold two_total. pose proof (logistic_incr x y H). assert (j = 0 \/ j = 1)%nat as [->| ->] by lia; cbn [upd nth]; lra.
Qed.
Lemma two_directions : directions two_total 2 = [1; 1].
Proof. unfold directions. cbn [seq map]. now rewrite (direction_rises _ _ _ (two_rises 0 ltac:(lia))), (direction_rises _ _ _ (two_rises 1 ltac:(lia))). Qed.
Lemma two_scores s2 l : s2 <= 0 -> -1 <= l -> l < 1 -> -1 < (l + 1) / 2 ->
  (coupled 2 [[0; 0]; [1; 1]] [-1; s2] = true /\ l = 0 \/ coupled 2 [[0; 0]; [1; 1]] [-1; s2] = false /\ l = -1) ->
  exists cols, bit_transform_population two_total two_items 3 [[0; 0]; [1; 1]] [-1; s2] [[1; 1]] = Ok cols /\
    nth 0 cols [] = [Rabs (Hl ((l + 1) / 2) - Hl (-1)) + Rabs (Hl 1 - Hl ((l + 1) / 2))].
Proof.
  intros Hs Hl1 Hl2 Hm HC. unfold bit_transform_population. cbv zeta. cbn [length]. rewrite two_directions. rewrite range_value by (discriminate || reflexivity). cbn [bind length].
  assert (Es : zip_with Rmult [-1; s2] [1; 1] = [-1; s2]) by (cbn [zip_with]; now rewrite !Rmult_1_r).
  assert (Ep : map (adjust [1; 1] [-1; s2]) [[0; 0]; [1; 1]] = [[0; 0]; [1; 1]]) by (cbn [map]; unfold adjust; rewrite Es; cbn [zip_with]; rewrite !Rmult_1_r, !Rmax_left by lra; reflexivity).
  assert (Et : map (adjust [1; 1] [-1; s2]) [[1; 1]] = [[1; 1]]) by (cbn [map]; unfold adjust; rewrite Es; cbn [zip_with]; rewrite !Rmult_1_r, !Rmax_left by lra; reflexivity).
  unfold population_medians. rewrite Es, Ep, Et. eexists. split; [reflexivity|].
  set (bounds := map _ (seq 0 2)). cbn [length]. set (med := map (fun j => median (column 0 j [[0; 0]; [1; 1]])) (seq 0 2)). assert (Em : med = [0; 0]).
  { unfold med. cbn [seq map]. unfold column. cbn [map nth]. unfold median. rewrite sort_01. reflexivity. }
  assert (Eb : nth 0 bounds (0, 0) = (l, 1)).
  { unfold bounds. cbn [seq map nth]. unfold low, high, column. cbn [map nth length]. rewrite !limit_01. cbn [unfin]. destruct HC as [[-> ->]|[-> ->]]; [rewrite Rmax_right by lra|]; reflexivity. }
  rewrite Em. set (entm := fun t => two_items (zip_with Rmult t [1; 1])).
  destruct (C42_score entm 3 [0; 0] [-1; s2] bounds [[1; 1]] 0 0 1 ltac:(lia) ltac:(cbn; lia) eq_refl) as (pts & E & HS & HI). rewrite Eb in HI. cbn [nth fst snd] in HI.
  pose proof (C42_order entm 3 [0; 0] [-1; s2] bounds [[1; 1]] 0 ltac:(lia) ltac:(cbn; lia)) as (Lw & _). cbn [length] in Lw.
  destruct (nth 0 (bit_scores entm 3 [0; 0] [-1; s2] bounds [[1; 1]]) []) as [|w [|]]; try discriminate Lw. cbn [nth_error] in E. f_equal. injection E as ->.
  assert (P : pts = [-1; (l + 1) / 2; 1]).
  { apply sorted_lt_ext; [exact HS|repeat constructor; lra|]. intro y. rewrite HI, Rmax_left by lra. unfold column. cbn [map nth In]. split.
    - intros [Hy [->|[(k & K & ->)|(c & [<-|[]] & ->)]]]; [now left| |right; right; left; rewrite Rmax_left; lra].
      assert (k = 1 \/ k = 2)%nat as [->| ->] by lia; cbn [INR Nat.sub] in *; [right; left|right; right; left]; rewrite Rmax_left; lra.
    - intros [<-|[<-|[<-|[]]]]; (split; [lra|]); [now left| |].
      + right. left. exists 1%nat. split; [lia|]. cbn [INR Nat.sub]. rewrite Rmax_left; lra.
      + right. right. exists 1. split; [now left|]. rewrite Rmax_left; lra. }
  rewrite P. cbn [variation]. unfold gap, entm, two_items. cbn [upd zip_with map nth rsum]. rewrite !Rmult_1_r. fold (Hl (-1)) (Hl ((l + 1) / 2)) (Hl 1) (Hl 0).
  replace (Hl 0 - Hl 0) with 0 by ring. rewrite Rabs_R0. ring.
Qed.
Theorem C125_start_refuted :
  exists cols cols' u v,
    bit_transform_population two_total two_items 3 [[0; 0]; [1; 1]] [-1; -1] [[1; 1]] = Ok cols /\ nth 0 cols [] = [u] /\
    bit_transform_population two_total two_items 3 [[0; 0]; [1; 1]] [-1; -10] [[1; 1]] = Ok cols' /\ nth 0 cols' [] = [v] /\
    (forall x y z, nth 0 (two_items [x; y]) 0 = nth 0 (two_items [x; z]) 0) /\ u <> v.
Proof.
  assert (O1 : coupled 2 [[0; 0]; [1; 1]] [-1; -1] = false).
  { unfold coupled. cbn [seq existsb nth]. unfold column. cbn [map nth]. destruct (outlying (is_outlier 4 [-1] [0; 1] true true)) eqn:E; [|reflexivity]. apply outlier_01 in E. lra. }
  assert (O2 : coupled 2 [[0; 0]; [1; 1]] [-1; -10] = true).
  { unfold coupled. cbn [seq existsb nth]. unfold column. cbn [map nth]. rewrite (proj2 (outlier_01 (-10)) ltac:(lra)). now rewrite orb_true_r. }
  destruct (two_scores (-1) (-1) ltac:(lra) ltac:(lra) ltac:(lra) ltac:(lra) ltac:(right; auto)) as (c & Ec & Ec').
  destruct (two_scores (-10) 0 ltac:(lra) ltac:(lra) ltac:(lra) ltac:(lra) ltac:(left; auto)) as (d & Ed & Ed').
  exists c, d. eexists. eexists. split; [exact Ec|]. split; [exact Ec'|]. split; [exact Ed|]. split; [exact Ed'|]. split; [reflexivity|].
  replace ((-1 + 1) / 2) with 0 by lra. replace ((0 + 1) / 2) with (1 / 2) by lra. replace (-1) with (- (1)) by ring. rewrite Hl_flip.
  pose proof (Hl_strict (-1) (- (1 / 2)) ltac:(lra) ltac:(lra)) as S1. pose proof (Hl_strict (- (1 / 2)) 0 ltac:(lra) ltac:(lra)) as S2. replace (-1) with (- (1)) in S1 by ring. rewrite !Hl_flip in *.
  rewrite !(Rabs_minus_sym (Hl 1)). rewrite !Rabs_right by lra. lra.
Qed.
Print Assumptions C125_start_refuted.

(** Non-trivial cases: the two-variable test with the second variable reversed, in another unit and origin; the
    hypotheses hold and the scores are the positive ones computed above. *)
Example C125_units_nonvacuous :
  let ent' := fun u => two_items [(nth 0 u 0 - 5) / 2; - nth 1 u 0] in
  let total' := fun u => two_total [(nth 0 u 0 - 5) / 2; - nth 1 u 0] in
  (forall t, length t = 2%nat -> ent' (convert [2; -1] [5; 0] t) = two_items t /\ total' (convert [2; -1] [5; 0] t) = two_total t) /\
  directions total' 2 = [1; -1] /\
  exists cols, bit_transform_population total' ent' 3 [[5; -0]; [7; -1]] [3; 1] [[7; -1]] = Ok cols /\
    bit_transform_population two_total two_items 3 [[0; 0]; [1; 1]] [-1; -1] [[1; 1]] = Ok cols /\ exists u, nth 0 cols [] = [u] /\ 0 < u.
Proof.
  intros ent' total'.
  assert (HE : forall t, length t = 2%nat -> ent' (convert [2; -1] [5; 0] t) = two_items t /\ total' (convert [2; -1] [5; 0] t) = two_total t).
  { intros [|x [|y [|]]] L; try discriminate L. unfold ent', total', convert. cbn [zip_with nth]. replace ((x * 2 + 5 - 5) / 2) with x by field. replace (- (y * -1 + 0)) with y by ring. auto. }
  assert (D0 : rises total' 2 0). { intros [|t0 [|t1 [|]]] x y L H; try discriminate L. unfold total', two_total. cbn [upd nth]. assert (G : (x - 5) / 2 < (y - 5) / 2) by lra. pose proof (logistic_incr _ _ G). lra. }
  assert (D1 : falls total' 2 1). { intros [|t0 [|t1 [|]]] x y L H; try discriminate L. unfold total', two_total. cbn [upd nth]. assert (G : - y < - x) by lra. pose proof (logistic_incr _ _ G). lra. }
  split; [exact HE|]. split; [unfold directions; cbn [seq map]; now rewrite (direction_rises _ _ _ D0), (direction_falls _ _ _ D1)|].
  assert (O1 : coupled 2 [[0; 0]; [1; 1]] [-1; -1] = false).
  { unfold coupled. cbn [seq existsb nth]. unfold column. cbn [map nth]. destruct (outlying (is_outlier 4 [-1] [0; 1] true true)) eqn:E; [|reflexivity]. apply outlier_01 in E. lra. }
  destruct (two_scores (-1) (-1) ltac:(lra) ltac:(lra) ltac:(lra) ltac:(lra) ltac:(right; auto)) as (c & Ec & Ec'). exists c.
  destruct (C125_units two_total total' two_items ent' 3 [2; -1] [5; 0] [[0; 0]; [1; 1]] [-1; -1] [[1; 1]]) as [K _].
  - reflexivity.
  - reflexivity.
  - constructor; [apply Rgt_not_eq; lra|]. constructor; [apply Rlt_not_eq; lra|constructor].
  - repeat constructor.
  - repeat constructor.
  - intros t L. now apply HE.
  - intros t L. now apply HE.
  - intros j J. left. now apply two_rises.
  - split; [|split; [exact Ec|]].
    + rewrite <- Ec, <- K. unfold convert. cbn [map zip_with]. f_equal; repeat (f_equal; try ring).
    + eexists. split; [exact Ec'|]. replace ((-1 + 1) / 2) with 0 by lra. pose proof (Hl_strict (-1) 0 ltac:(lra) ltac:(lra)). pose proof (Rle_abs (Hl 0 - Hl (-1))). pose proof (Rabs_pos (Hl 1 - Hl 0)). lra.
Qed.
Example C125_range_nonvacuous : [[0; 0]; [1; 1]] <> ([] : list (list R)) /\ Forall (fun r => length r = length [-1; -10]) [[0; 0]; [1; 1]] /\ Permutation [[0; 0]; [1; 1]] [[1; 1]; [0; 0]].
Proof. split; [discriminate|]. split; [repeat constructor|]. apply perm_swap. Qed.
