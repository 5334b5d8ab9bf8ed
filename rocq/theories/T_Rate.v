(** The reported Jacobian of the bit scale against the scores themselves. *)
From Coq Require Import Sorted.
From Verif Require Import Base BaseFacts RBase RFacts P_Pop6 M_Mono M_Lik M_Est M_Stat M_Grid S_Grid P_Grid1 P_Grid5 P_Grid7 S_Mass P_Mass S_Bit P_Bit1 P_Bit2 P_Bit3 S_Rate P_Rate T_Grid T_Bit.
Import M_Est List.
Local Open Scope R_scope.

(** ** C128 *)
Lemma transform_column mult start thetas i theta : nth_error thetas i = Some [theta] -> mult * start <= mult * theta ->
  nth_error (column 0 0 (map (adjust [mult] [start]) thetas)) i = Some (mult * theta).
Proof.
  intros H L. unfold column. rewrite map_map, nth_error_map, H. cbn. f_equal. rewrite Rmax_left; lra.
Qed.
Lemma ordered_rate P D mult eps : mult * mult = 1 -> smooth_items P D -> 0 < eps ->
  exists G, forall gp start thetas i k theta eta, (G <= gp)%nat -> nth_error thetas i = Some [theta] -> nth_error thetas k = Some [eta] ->
    mult * start <= mult * theta -> mult * theta <= mult * eta -> -7 <= mult * theta -> mult * eta <= 7 ->
    exists a b z J, nth_error (nth 0 (bit_transform (test_bits P) gp [mult] [start] thetas) []) i = Some a /\
      nth_error (nth 0 (bit_transform (test_bits P) gp [mult] [start] thetas) []) k = Some b /\
      mult * theta <= mult * z <= mult * eta /\ bit_jacobian mult (seq 0 (length D)) (at_score z P) (at_score z D) = Ok (Some (Fin J)) /\
      Rabs (b - a - J * (eta - theta)) <= eps.
Proof.
  intros Hm HP He. destruct (C118_close (fun t => test_bits P (zip_with Rmult t [mult])) (repeat 0 1) 0 (length P) _ (-7) 7 eps ltac:(lra) (test_smooth mult P D (-7) 7 HP) He) as (G & HG).
  exists (Nat.max 1 G). intros gp start thetas i k theta eta Hgp Hi Hk H1 H2 H3 H4.
  pose proof (transform_column mult start thetas i theta Hi H1) as Ci. pose proof (transform_column mult start thetas k eta Hk ltac:(lra)) as Ck.
  unfold bit_transform. cbv zeta. cbn [length]. set (cols := map (adjust [mult] [start]) thetas) in *. set (E := fun t => test_bits P (zip_with Rmult t [mult])) in *. set (st := zip_with Rmult [start] [mult]).
  assert (Ls : (0 < length st)%nat) by (cbn; lia). assert (Es : nth 0 st 0 = mult * start) by (cbn; ring).
  destruct (score_difference E gp (repeat 0 1) st (repeat (-7, 7) 1) cols 0 i k _ _ ltac:(lia) Ls Ci Ck ltac:(lra) H2) as (a & b & c & Ea & Eb & Ec & Eabc).
  destruct (HG gp (upd 0 (mult * theta) st) (repeat (-7, 7) 1) cols k (mult * eta) ltac:(lia) ltac:(rewrite upd_length; exact Ls) eq_refl Ck) as (c' & v & Ec' & Iv & Bv); [cbn; lra|lra|].
  rewrite Ec in Ec'. injection Ec' as <-. change (nth 0 (upd 0 (mult * theta) st) 0) with (mult * theta) in Iv.
  destruct (integral_mean _ _ _ _ _ H2 Iv) as (z & Hz & Ev). exists a, b, (z * mult), (mult * sumn (length P) (fun i => Rabs (slope_of P D i (z * mult)))).
  split; [exact Ea|]. split; [exact Eb|]. split; [replace (mult * (z * mult)) with (z * (mult * mult)) by ring; rewrite Hm; lra|]. split; [now apply jacobian_value|].
  assert (E2 : mult * sumn (length P) (fun i => Rabs (slope_of P D i (z * mult))) * (eta - theta) = v).
  { rewrite Ev. assert (Ha : Rabs mult = 1) by (assert (Hab : Rabs mult * Rabs mult = 1) by (rewrite <- Rabs_mult, Hm; apply Rabs_R1); pose proof (Rabs_pos mult); nra).
    rewrite (sumn_ext _ (fun i => Rabs (mult * slope_of P D i (z * mult))) (fun i => Rabs (slope_of P D i (z * mult)))) by (intros n _; rewrite Rabs_mult, Ha; ring). ring. }
  rewrite E2. apply Rabs_le. lra.
Qed.
(** The difference of two respondents' bit scores is, up to any tolerance once the grid is fine enough, the difference of
    their scores times the Jacobian reported at a score in between; the directions agree too.  The start may lie
    anywhere below, in particular at the default. *)
Theorem C128_rate : forall P D mult eps, mult = 1 \/ mult = -1 -> smooth_items P D -> 0 < eps ->
  exists G, forall gp start thetas i k theta eta, (G <= gp)%nat -> nth_error thetas i = Some [theta] -> nth_error thetas k = Some [eta] ->
    mult * start <= mult * theta -> mult * start <= mult * eta -> -7 <= theta <= 7 -> -7 <= eta <= 7 ->
    exists a b z J, nth_error (nth 0 (bit_transform (test_bits P) gp [mult] [start] thetas) []) i = Some a /\
      nth_error (nth 0 (bit_transform (test_bits P) gp [mult] [start] thetas) []) k = Some b /\
      Rmin theta eta <= z <= Rmax theta eta /\ bit_jacobian mult (seq 0 (length D)) (at_score z P) (at_score z D) = Ok (Some (Fin J)) /\
      Rabs (b - a - J * (eta - theta)) <= eps.
Proof.
  intros P D mult eps Hm HP He. assert (M2 : mult * mult = 1) by (destruct Hm; subst; ring). destruct (ordered_rate P D mult eps M2 HP He) as (G & HG). exists G.
  intros gp start thetas i k theta eta Hgp Hi Hk H1 H2 H3 H4. destruct (Rle_dec (mult * theta) (mult * eta)) as [L|L].
  - destruct (HG gp start thetas i k theta eta Hgp Hi Hk H1 L) as (a & b & z & J & Ea & Eb & Hz & EJ & B); [destruct Hm; subst; lra|destruct Hm; subst; lra|].
    exists a, b, z, J. split; [exact Ea|]. split; [exact Eb|]. split; [|now split]. unfold Rmin, Rmax. destruct (Rle_dec theta eta); destruct Hm; subst; lra.
  - destruct (HG gp start thetas k i eta theta Hgp Hk Hi H2 ltac:(lra)) as (b & a & z & J & Eb & Ea & Hz & EJ & B); [destruct Hm; subst; lra|destruct Hm; subst; lra|].
    exists a, b, z, J. split; [exact Ea|]. split; [exact Eb|]. split; [unfold Rmin, Rmax; destruct (Rle_dec theta eta); destruct Hm; subst; lra|]. split; [exact EJ|].
    rewrite <- Rabs_Ropp. replace (- (b - a - J * (eta - theta))) with (a - b - J * (theta - eta)) by ring. exact B.
Qed.
Print Assumptions C128_rate.
Lemma logistic_cont_item : smooth_items logistic_item logistic_item_slopes.
Proof.
  assert (C : forall t, continuity_pt (fun t => logistic t * (1 - logistic t)) t).
  { intro t. apply (continuity_pt_mult logistic); [apply logistic_cont|]. apply (continuity_pt_minus (fun _ => 1) logistic); [apply continuity_pt_const; intros ? ?; reflexivity|apply logistic_cont]. }
  constructor; [|constructor]. split; [constructor; [|constructor; [|constructor]]|].
  - split; [|split].
    + intro t. replace (- (logistic t * (1 - logistic t))) with (0 - logistic t * (1 - logistic t)) by ring. apply (derivable_pt_lim_minus (fun _ => 1) logistic); [apply derivable_pt_lim_const|apply logistic_derivative].
    + intro t. apply (continuity_pt_opp (fun t => logistic t * (1 - logistic t))). apply C.
    + right. intro t. pose proof (logistic_bounds t). lra.
  - split; [|split]; [apply logistic_derivative|exact C|]. right. intro t. apply logistic_bounds.
  - intro t. cbn [map rsum]. lra.
Qed.
(** Below the start the scores are all 0, yet the Jacobian reported there is positive. *)
Theorem C128_below_refuted : forall start theta gp, (1 <= gp)%nat -> theta <= start -> theta < 0 ->
  bit_transform (test_bits logistic_item) gp [1] [start] [[theta]] = [[0]] /\
  exists J, bit_jacobian 1 [0%nat] (at_score theta logistic_item) (at_score theta logistic_item_slopes) = Ok (Some (Fin J)) /\ 0 < J.
Proof.
  intros start theta gp G Hs Ht. split.
  - unfold bit_transform. cbv zeta. cbn [length]. set (st := zip_with Rmult [start] [1]). set (cols := map (adjust [1] [start]) [[theta]]).
    destruct (C42_order (fun t => test_bits logistic_item (zip_with Rmult t [1])) gp (repeat 0 1) st (repeat (-7, 7) 1) cols 0 G ltac:(cbn; lia)) as (L & _ & Z & _).
    assert (X : nth_error (column 0 0 cols) 0 = Some start) by (cbn; f_equal; rewrite Rmax_right; lra). specialize (Z 0%nat start X ltac:(cbn; lra)).
    unfold bit_scores in *. change (length st) with 1%nat in *. cbn [seq map nth] in *. change (length cols) with 1%nat in L. set (r := bit_scores_variable _ _ _ _ _ _ _ _) in *.
    destruct r as [|w [|w' r]]; cbn [length] in L; try lia. cbn in Z. injection Z as ->. reflexivity.
  - exists (1 * sumn 1 (fun i => Rabs (slope_of logistic_item logistic_item_slopes i theta))). split; [exact (jacobian_value 1 logistic_item logistic_item_slopes theta logistic_cont_item)|].
    cbn [sumn]. rewrite Rmult_1_l, Rplus_0_l. apply Rabs_pos_lt. replace (slope_of logistic_item logistic_item_slopes 0 theta) with (hl theta); [apply hl_sign; lra|].
    apply (derivable_pt_lim_uniq Hl theta); [apply Hl_deriv|]. apply (derivable_ext (fun x => bits (map (fun Q => Q x) (nth 0 logistic_item [])))); [intro z; reflexivity|].
    destruct (items_nth _ _ 0%nat logistic_cont_item ltac:(cbn; lia)) as [A B]. now apply entropy_slope_deriv.
Qed.
Print Assumptions C128_below_refuted.
(** The logistic item with an inverted scale and the default start. *)
Example C128_nonvacuous : smooth_items logistic_item logistic_item_slopes /\ exists G : nat, forall gp, (G <= gp)%nat ->
  exists a b z J, nth_error (nth 0 (bit_transform (test_bits logistic_item) gp [-1] [10000] [[1]; [-2]]) []) 0 = Some a /\
    nth_error (nth 0 (bit_transform (test_bits logistic_item) gp [-1] [10000] [[1]; [-2]]) []) 1 = Some b /\ -2 <= z <= 1 /\
    bit_jacobian (-1) [0%nat] (at_score z logistic_item) (at_score z logistic_item_slopes) = Ok (Some (Fin J)) /\ Rabs (b - a - J * (-2 - 1)) <= 1 / 100.
Proof.
  split; [exact logistic_cont_item|]. destruct (C128_rate logistic_item logistic_item_slopes (-1) (1 / 100) ltac:(now right) logistic_cont_item ltac:(lra)) as (G & HG). exists G. intros gp Hgp.
  destruct (HG gp 10000 [[1]; [-2]] 0%nat 1%nat 1 (-2) Hgp eq_refl eq_refl) as (a & b & z & J & Ea & Eb & Hz & EJ & B); try lra.
  exists a, b, z, J. rewrite Rmin_right, Rmax_left in Hz by lra. repeat split; try assumption; lra.
Qed.
