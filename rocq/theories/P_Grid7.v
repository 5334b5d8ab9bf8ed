(** The one-dimensional bit score, the Jacobian of the bit scale and quantile transformation. *)
From Coq Require Import Permutation Sorted.
From Verif Require Import Base BaseFacts RBase RFacts M_Logit M_Mono M_Lik M_Est M_Stat M_Grid S_Grid P_Mono1 P_Mono8 P_Est1 P_Lik3 P_Scale1 P_Stat1 P_Stat3 P_Stat8 P_Grid1 P_Grid2 P_Grid5 P_Grid6.
Local Open Scope R_scope.

Lemma score_1d_lower ent gp theta start bounds n : (2 <= gp)%nat -> Forall2 Rle start theta -> (forall t, length (ent t) = n) ->
  gap (ent start) (ent theta) <= bit_score_1d ent gp theta start bounds.
Proof.
  intros H F L. unfold bit_score_1d. rewrite rsum_changes, (variation_sum _ _ []), path_length. pose proof (P_Stat2.F2_length _ _ _ F) as Lf.
  rewrite <- (path_first gp theta start bounds) at 1 by lia. rewrite <- (path_last gp theta start bounds) at 2 by assumption.
  apply (path_lower (fun k => ent (nth k (grid_path gp theta start bounds) [])) n). intros. apply L.
Qed.
Lemma score_1d_equal (E : R -> list R) gp t s lo hi n : (2 <= gp)%nat -> s <= t -> lo <= hi -> coordinatewise_monotone E n s t ->
  bit_score_1d (fun v => E (nth 0 v 0)) gp [t] [s] [(lo, hi)] = gap (E s) (E t).
Proof.
  intros H S B [L M]. unfold bit_score_1d. rewrite rsum_changes, (variation_sum _ _ []), path_length.
  set (x := fun k => grid_coordinate gp k (INR k / INR (gp - 1)) t s lo hi).
  assert (X : forall k, (k < gp)%nat -> nth 0 (nth k (grid_path gp [t] [s] [(lo, hi)]) []) 0 = x k) by (intros k Hk; rewrite (nth_error_nth _ _ [] (path_nth gp [t] [s] [(lo, hi)] k Hk)); reflexivity).
  rewrite (sumn_ext _ _ (fun k => gap (E (x k)) (E (x (Datatypes.S k))))) by (intros k Hk; rewrite !X by lia; reflexivity).
  assert (X0 : x O = s) by reflexivity. assert (Xn : x (gp - 1)%nat = t).
  { unfold x. assert (0 < INR (gp - 1)) by (apply lt_0_INR; lia). replace (INR (gp - 1) / INR (gp - 1)) with 1 by (field; lra). apply coordinate_last; assumption. }
  assert (St : forall k, (k < gp - 1)%nat -> s <= x k /\ x k <= x (Datatypes.S k) <= t) by (intros k Hk; apply coordinate_step; try assumption; lia).
  rewrite (path_equal (fun k => E (x k)) n).
  - rewrite X0, Xn. reflexivity.
  - intros k Hk. apply L. destruct (Nat.eq_dec k (gp - 1)) as [->|]; [lra|]. specialize (St k ltac:(lia)). lra.
  - intros c Hc. destruct (M c Hc) as [I|D]; [left|right]; intros k Hk; destruct (St k Hk) as (A1 & A2 & A3); auto.
Qed.

(** ** Jacobian *)
Lemma derivable_ext f g x l : (forall z, f z = g z) -> derivable_pt_lim f x l -> derivable_pt_lim g x l.
Proof. intros E H e He. destruct (H e He) as (d & Hd). exists d. intros h h0 hd. rewrite <- !E. apply Hd; assumption. Qed.
Definition good_category (q g : R) : Prop := 0 < q \/ (q = 0 /\ g = 0).
Lemma item_gradient_value p g : Forall2 good_category p g ->
  item_bit_gradient p g = Some (Fin (Rabs (rsum (zip_with (fun q d => if Req_EM_T q 0 then 0 else ln q / ln 2 * d) p g)))).
Proof.
  intros H. unfold item_bit_gradient. replace (fnansum (zip_with (fun q d => fmul (flog2 q) (Some (Fin d))) p g)) with (Some (Fin (rsum (zip_with (fun q d => if Req_EM_T q 0 then 0 else ln q / ln 2 * d) p g)))); [reflexivity|].
  symmetry. unfold fnansum. rewrite <- fsum_fin. f_equal. induction H as [|q d p g Hq H IH]; [reflexivity|]. cbn [zip_with map]. rewrite IH. f_equal.
  unfold flog2, flog. destruct Hq as [Hq|[-> ->]].
  - destruct (Rlt_dec 0 q); [|lra]. destruct (Req_EM_T q 0); [lra|]. reflexivity.
  - destruct (Rlt_dec 0 0); [lra|]. destruct (Req_EM_T 0 0); [|lra]. cbn. destruct (Req_EM_T 0 0); [reflexivity|lra].
Qed.
Lemma derivable_pt_lim_uniq f x a b : derivable_pt_lim f x a -> derivable_pt_lim f x b -> a = b.
Proof. apply uniqueness_limite. Qed.
Lemma entropy_term P t d : derivable_pt_lim P t d -> 0 < P t ->
  derivable_pt_lim (fun x => if Req_EM_T (P x) 0 then 0 else - P x * (ln (P x) / ln 2)) t (- (ln (P t) / ln 2 * d) - d / ln 2).
Proof.
  intros D H. assert (L2 : 0 < ln 2) by (pose proof ln_lt_2; lra).
  assert (D2 : derivable_pt_lim (fun x => (- P x) * (ln (P x) / ln 2)) t ((- d) * (ln (P t) / ln 2) + (- P t) * (d / P t / ln 2))).
  { apply (derivable_pt_lim_mult (fun x => - P x) (fun x => ln (P x) / ln 2)).
    - apply (derivable_pt_lim_opp P). exact D.
    - unfold Rdiv. replace (d * / P t * / ln 2) with (d / P t * / ln 2 + ln (P t) * 0) by (unfold Rdiv; ring).
      apply (derivable_pt_lim_mult (fun x => ln (P x)) (fun _ => / ln 2)); [apply log_derivative; assumption|apply derivable_pt_lim_const]. }
  replace (- (ln (P t) / ln 2 * d) - d / ln 2) with ((- d) * (ln (P t) / ln 2) + (- P t) * (d / P t / ln 2)) by (field; split; lra).
  assert (C : continuity_pt P t) by (apply derivable_continuous_pt; exists d; exact D).
  destruct (C (P t) H) as (r & Hr & Near).
  apply (derivable_local _ (fun x => - P x * (ln (P x) / ln 2)) t _ r); [lra| |exact D2].
  intros h Hh. destruct (Req_EM_T (P (t + h)) 0) as [Z|]; [|reflexivity]. exfalso. destruct (Req_dec h 0) as [->|Nh]; [rewrite Rplus_0_r in Z; lra|].
  specialize (Near (t + h)). cbn in Near. unfold R_dist in Near. rewrite Z in Near. assert (N : Rabs (0 - P t) < P t).
  { apply Near. split; [split; [exact I|lra]|]. replace (t + h - t) with h by ring. exact Hh. }
  rewrite Rminus_0_l, Rabs_Ropp, Rabs_right in N; lra.
Qed.
Lemma bits_derivative t ps ds : Forall2 (regular_category t) ps ds ->
  derivable_pt_lim (fun x => bits (map (fun P => P x) ps)) t
    (- rsum (zip_with (fun q d => if Req_EM_T q 0 then 0 else ln q / ln 2 * d) (map (fun P => P t) ps) ds) - rsum ds / ln 2).
Proof.
  assert (L2 : 0 < ln 2) by (pose proof ln_lt_2; lra).
  induction 1 as [|P d ps ds [D Hp] H IH]; unfold bits in *; cbn [map zip_with rsum].
  - replace (- 0 - 0 / ln 2) with 0 by (field; lra). apply derivable_pt_lim_const.
  - set (r := rsum (zip_with _ (map (fun P0 => P0 t) ps) ds)) in *. destruct Hp as [Z|Pos].
    + assert (d = 0).
      { apply (derivable_pt_lim_uniq P t); [exact D|]. apply (derivable_ext (fun _ => 0)); [intros x; symmetry; apply Z|apply derivable_pt_lim_const]. }
      subst d. destruct (Req_EM_T (P t) 0) as [_|N]; [|exfalso; apply N, Z].
      replace (- (0 + r) - (0 + rsum ds) / ln 2) with (0 + (- r - rsum ds / ln 2)) by (field; lra).
      apply (derivable_pt_lim_plus (fun x => if Req_EM_T (P x) 0 then 0 else - P x * (ln (P x) / ln 2))); [|exact IH].
      apply (derivable_ext (fun _ => 0)); [intros x; destruct (Req_EM_T (P x) 0) as [_|N]; [reflexivity|exfalso; apply N, Z]|apply derivable_pt_lim_const].
    + destruct (Req_EM_T (P t) 0); [lra|].
      replace (- (ln (P t) / ln 2 * d + r) - (d + rsum ds) / ln 2) with ((- (ln (P t) / ln 2 * d) - d / ln 2) + (- r - rsum ds / ln 2)) by (field; lra).
      apply (derivable_pt_lim_plus (fun x => if Req_EM_T (P x) 0 then 0 else - P x * (ln (P x) / ln 2))); [apply entropy_term; assumption|exact IH].
Qed.
Lemma regular_good t ps ds : Forall2 (regular_category t) ps ds -> Forall2 good_category (map (fun P => P t) ps) ds.
Proof.
  induction 1 as [|P d ps ds [D Hp] H IH]; cbn; constructor; [|exact IH]. destruct Hp as [Z|]; [right|left; assumption]. split; [apply Z|].
  apply (derivable_pt_lim_uniq P t); [exact D|]. apply (derivable_ext (fun _ => 0)); [intros x; symmetry; apply Z|apply derivable_pt_lim_const].
Qed.
Lemma item_gradient_derivative t ps ds : Forall2 (regular_category t) ps ds -> rsum ds = 0 ->
  exists d, derivable_pt_lim (fun x => bits (map (fun P => P x) ps)) t d /\ item_bit_gradient (map (fun P => P t) ps) ds = Some (Fin (Rabs d)).
Proof.
  intros H Z. pose proof (bits_derivative t ps ds H) as D. rewrite Z in D. eexists. split; [exact D|]. rewrite item_gradient_value by (apply regular_good; exact H). do 2 f_equal.
  unfold Rdiv. rewrite (Rmult_0_l (/ ln 2)), Rminus_0_r, Rabs_Ropp. reflexivity.
Qed.
Lemma select_all {A} (l : list A) : select (seq 0 (length l)) l = Ok l.
Proof.
  unfold select. assert (G : forall m n, (forall k, (k < length m)%nat -> nth_error l (n + k) = nth_error m k) -> mapM (fun i => match nth_error l i with Some x => Ok x | None => Err IndexError end) (seq n (length m)) = Ok m).
  { induction m as [|a m IH]; intros n H; [reflexivity|]. cbn [length seq mapM]. pose proof (H 0%nat ltac:(cbn; lia)) as H0. rewrite Nat.add_0_r in H0. rewrite H0. cbn [nth_error bind]. rewrite IH; [reflexivity|].
    intros k Hk. specialize (H (S k) ltac:(cbn; lia)). rewrite Nat.add_succ_r in H. exact H. }
  apply (G l 0%nat). reflexivity.
Qed.
Lemma select_length {A} items (l : list A) : (forall i, In i items -> (i < length l)%nat) -> exists m, select items l = Ok m /\ length m = length items.
Proof.
  intros H. unfold select. induction items as [|i items IH]; [exists []; split; reflexivity|]. destruct IH as (m & E & L); [intros; apply H; right; assumption|]. cbn [mapM].
  destruct (nth_error l i) as [x|] eqn:X; [|apply nth_error_None in X; specialize (H i (or_introl eq_refl)); lia]. cbn [bind]. rewrite E. cbn [bind]. exists (x :: m). split; [reflexivity|cbn; congruence].
Qed.
Lemma jacobian_all mult t (P : list (list (R -> R))) grads : Forall2 (fun ps ds => Forall2 (regular_category t) ps ds /\ rsum ds = 0) P grads ->
  exists dE, Forall2 (fun ps d => derivable_pt_lim (fun x => bits (map (fun Q => Q x) ps)) t d) P dE /\
    bit_jacobian mult (seq 0 (length grads)) (map (map (fun Q => Q t)) P) grads = Ok (Some (Fin (mult * rsum (map Rabs dE)))).
Proof.
  intros H. assert (L : length P = length grads) by (clear -H; induction H; cbn; congruence).
  assert (G : exists dE, Forall2 (fun ps d => derivable_pt_lim (fun x => bits (map (fun Q => Q x) ps)) t d) P dE /\
    map (fun '(p, g) => item_bit_gradient p g) (combine (map (map (fun Q => Q t)) P) grads) = map (fun x => Some (Fin x)) (map Rabs dE)).
  { clear L. induction H as [|ps ds P grads [A B] H IH]; [exists []; split; [constructor|reflexivity]|]. destruct IH as (dE & I1 & I2). destruct (item_gradient_derivative t ps ds A B) as (d & D1 & D2).
    exists (d :: dE). split; [constructor; assumption|]. cbn [map combine]. rewrite D2, I2. reflexivity. }
  destruct G as (dE & G1 & G2). exists dE. split; [exact G1|]. unfold bit_jacobian. rewrite select_all. cbn [bind]. unfold broadcast. rewrite map_length, L, Nat.eqb_refl. cbn [bind].
  rewrite G2, P_Stat8.fsum_fin. reflexivity.
Qed.
Lemma jacobian_subset mult items probs grads : (forall i, In i items -> (i < length grads)%nat) -> (1 < length items)%nat -> (1 < length probs)%nat -> length items <> length probs ->
  bit_jacobian mult items probs grads = Err RuntimeError.
Proof.
  intros H L1 L2 N. unfold bit_jacobian. destruct (select_length items grads H) as (m & E & Lm). rewrite E. cbn [bind]. unfold broadcast. destruct (Nat.eqb_spec (length probs) (length m)); [lia|].
  destruct probs as [|p [|q probs]]; cbn in L2; try lia. destruct m as [|a [|b m]]; cbn in Lm; try lia. reflexivity.
Qed.
(** ** Binary entropy in bits *)
Lemma bits_half : bits [1 / 2; 1 / 2] = 1.
Proof.
  unfold bits. cbn [map rsum]. destruct (Req_EM_T (1 / 2) 0); [lra|]. assert (L2 : 0 < ln 2) by (pose proof ln_lt_2; lra). replace (1 / 2) with (/ 2) by lra. rewrite ln_Rinv by lra. field. lra.
Qed.
Lemma bits_less p : 0 < p < 1 -> p <> 1 / 2 -> bits [1 - p; p] < 1.
Proof.
  intros H N. unfold bits. cbn [map rsum]. destruct (Req_EM_T (1 - p) 0); [lra|]. destruct (Req_EM_T p 0); [lra|]. assert (L2 : 0 < ln 2) by (pose proof ln_lt_2; lra).
  assert (T : forall q, 0 < q -> q <> 1 / 2 -> - q * ln q < q * ln 2 + (1 / 2 - q)).
  { intros q Hq Nq. assert (X : ln (/ (2 * q)) < / (2 * q) - 1).
    { assert (Y : 0 < / (2 * q)) by (apply Rinv_0_lt_compat; lra). assert (Z : ln (/ (2 * q)) <> 0).
      { intros Z. assert (E1 : / (2 * q) = 1) by (rewrite <- (exp_ln _ Y), Z; apply exp_0). apply Nq. apply (f_equal (fun z => z * (2 * q))) in E1. rewrite Rinv_l in E1 by lra. lra. }
      pose proof (exp_ineq1 (ln (/ (2 * q))) Z) as W. rewrite exp_ln in W by exact Y. lra. }
    rewrite ln_Rinv, ln_mult in X by lra. apply (Rmult_lt_compat_l q) in X; [|exact Hq]. replace (q * (/ (2 * q) - 1)) with (1 / 2 - q) in X by (field; lra). lra. }
  pose proof (T p ltac:(lra) N). pose proof (T (1 - p) ltac:(lra) ltac:(lra)).
  apply Rmult_lt_reg_r with (ln 2); [exact L2|]. replace ((- (1 - p) * (ln (1 - p) / ln 2) + (- p * (ln p / ln 2) + 0)) * ln 2) with (- (1 - p) * ln (1 - p) + - p * ln p) by (field; lra). lra.
Qed.
Lemma bits_flip p : bits [1 - p; p] = bits [p; 1 - p].
Proof. unfold bits. cbn [map rsum]. ring. Qed.

(** ** Quantile transformation *)
Lemma quantile_nth icdf l i v : nth_error l i = Some v -> exists k, nth_error (ranks l) i = Some k /\ (below v l <= k < below v l + equal_to v l)%nat /\ nth_error (quantile_transform icdf l) i = Some (icdf (INR (k + 1) / INR (length l + 1))).
Proof. intros H. destruct (ranks_spec l i v H) as (k & A & B & C & _). exists k. split; [exact A|]. split; [lia|]. unfold quantile_transform. rewrite nth_error_map, A. reflexivity. Qed.
Lemma quantile_perm icdf l : Permutation (quantile_transform icdf l) (map (fun k => icdf (INR (k + 1) / INR (length l + 1))) (seq 0 (length l))).
Proof. unfold quantile_transform. apply Permutation_map. apply ranks_perm. Qed.
