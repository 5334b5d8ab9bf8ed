(** Lemmas: concrete rules, weights, and the marginal likelihood. *)
From Verif Require Import Base BaseFacts RBase RFacts M_CV M_Data M_Logit M_Lik M_Est M_Mix M_Quad P_Mix1 P_Mix5 P_Est1 P_Est2 P_Est3 P_Max6 P_Quad1 P_Quad2 S_Mix S_Est S_Quad.
Import List.
Local Open Scope R_scope.

(** ** Normal moments: integration by parts *)
Lemma exp_power_bound n y : (0 < n)%nat -> 0 < y -> exp (- y) <= (INR n / y) ^ n.
Proof.
  intros Hn Hy. assert (Pn : 0 < INR n) by now apply lt_0_INR. assert (E : exp (- y) = exp (- (y / INR n)) ^ n).
  { assert (G : forall k t, exp (INR k * t) = exp t ^ k). { induction k as [|k IH]; intro t; [cbn; rewrite Rmult_0_l; apply exp_0|]. rewrite S_INR. cbn [pow]. rewrite <- IH, <- exp_plus. f_equal. ring. }
    rewrite <- G. f_equal. field. lra. }
  rewrite E. apply pow_incr. split; [left; apply exp_pos|]. rewrite exp_Ropp. assert (Q : 0 < y / INR n) by (apply Rdiv_lt_0_compat; assumption).
  replace (INR n / y) with (/ (y / INR n)) by (field; lra). apply Rinv_le_contravar; [exact Q|]. pose proof (exp_ineq1 (y / INR n) ltac:(lra)). lra.
Qed.
Lemma tail_vanishes n eps : (0 < n)%nat -> 0 < eps -> exists M, forall x, M < Rabs x -> Rabs (x ^ n * exp (- (x ^ 2 / 2))) < eps.
Proof.
  intros Hn He. assert (Pn : 1 <= INR n) by (change 1 with (INR 1); apply le_INR; lia). exists (2 * INR n + 2 * INR n / eps). intros x Hx.
  assert (Q : 0 < 2 * INR n / eps) by (apply Rdiv_lt_0_compat; lra). set (a := Rabs x) in *. assert (Pa : 0 < a) by lra.
  rewrite Rabs_mult, (Rabs_right (exp _)) by (left; apply exp_pos). rewrite <- RPow_abs. fold a.
  assert (E : x ^ 2 = a ^ 2) by (unfold a; symmetry; apply pow2_abs). rewrite E. assert (Pa2 : 0 < a ^ 2 / 2) by (apply Rdiv_lt_0_compat; [apply pow_lt; exact Pa|lra]).
  apply Rle_lt_trans with (a ^ n * (INR n / (a ^ 2 / 2)) ^ n); [apply Rmult_le_compat_l; [apply pow_le; lra|now apply exp_power_bound]|].
  rewrite <- Rpow_mult_distr. replace (a * (INR n / (a ^ 2 / 2))) with (2 * INR n / a) by (field; lra).
  assert (B : 0 <= 2 * INR n / a <= 1). { split; [left; apply Rdiv_lt_0_compat; lra|]. apply (Rmult_le_reg_r a); [exact Pa|]. unfold Rdiv. rewrite Rmult_assoc, Rinv_l by lra. lra. }
  apply Rle_lt_trans with (2 * INR n / a).
  - destruct n as [|n]; [lia|]. cbn [pow]. set (t := 2 * INR (S n) / a) in *. assert (t ^ n <= 1) by (rewrite <- (pow1 n); apply pow_incr; exact B). assert (0 <= t ^ n) by (apply pow_le; lra). nra.
  - apply (Rmult_lt_reg_r a); [exact Pa|]. unfold Rdiv. rewrite Rmult_assoc, Rinv_l by lra. assert (2 * INR n / eps < a) by lra. apply (Rmult_lt_compat_r eps) in H; [|exact He]. unfold Rdiv in H. rewrite Rmult_assoc, Rinv_l in H by lra. lra.
Qed.
Lemma parts k x : derivable_pt_lim (fun x => - (x ^ S k * exp (- (x ^ 2 / 2)))) x (x ^ S (S k) * exp (- (x ^ 2 / 2)) - INR (S k) * (x ^ k * exp (- (x ^ 2 / 2)))).
Proof.
  assert (D1 : derivable_pt_lim (fun x => - (x ^ 2 / 2)) x (- x)).
  { replace (- x) with (- (1 / 2) * (INR 2 * x ^ pred 2)) by (cbn; field). apply (derivable_pt_lim_ext (mult_real_fct (- (1 / 2)) (fun y => y ^ 2))); [intros; unfold mult_real_fct; field|]. apply derivable_pt_lim_scal. apply derivable_pt_lim_pow. }
  assert (D2 : derivable_pt_lim (fun x => exp (- (x ^ 2 / 2))) x (exp (- (x ^ 2 / 2)) * - x)) by exact (derivable_pt_lim_comp _ _ x _ _ D1 (derivable_pt_lim_exp (- (x ^ 2 / 2)))).
  pose proof (derivable_pt_lim_mult _ _ x _ _ (derivable_pt_lim_pow x (S k)) D2) as D3. apply derivable_pt_lim_opp in D3.
  match type of D3 with derivable_pt_lim _ _ ?l => replace (x ^ S (S k) * exp (- (x ^ 2 / 2)) - INR (S k) * (x ^ k * exp (- (x ^ 2 / 2)))) with l by (cbn [pred pow]; ring) end. exact D3.
Qed.

(** ** Rules with two and three points *)
Definition two_nodes : list R := [- (1 / sqrt 2); 1 / sqrt 2].
Definition two_weights : list R := [sqrt PI / 2; sqrt PI / 2].
Lemma sqrt2_pos : 0 < sqrt 2.
Proof. apply sqrt_lt_R0. lra. Qed.
Lemma two_exact : exact_to 3 two_nodes two_weights.
Proof.
  pose proof sqrt2_pos. split; [reflexivity|]. intros k Hk. unfold two_nodes, two_weights. cbn [zip_with]. unfold rsum. cbn [fold_right].
  replace (sqrt 2 * - (1 / sqrt 2)) with (-1) by (field; lra). replace (sqrt 2 * (1 / sqrt 2)) with 1 by (field; lra).
  destruct k as [|[|[|[|k]]]]; [| | | |lia]; cbn [normal_moment INR pow]; field.
Qed.
Definition three_nodes : list R := [- (sqrt 3 / sqrt 2); 0; sqrt 3 / sqrt 2].
Definition three_weights : list R := [sqrt PI / 6; sqrt PI * 2 / 3; sqrt PI / 6].
Lemma three_exact : exact_to 5 three_nodes three_weights.
Proof.
  pose proof sqrt2_pos. split; [reflexivity|]. intros k Hk. unfold three_nodes, three_weights. cbn [zip_with]. unfold rsum. cbn [fold_right].
  replace (sqrt 2 * - (sqrt 3 / sqrt 2)) with (- sqrt 3) by (field; lra). replace (sqrt 2 * (sqrt 3 / sqrt 2)) with (sqrt 3) by (field; lra). assert (Q : sqrt 3 * sqrt 3 = 3) by (apply sqrt_sqrt; lra). set (r := sqrt 3) in *.
  destruct k as [|[|[|[|[|[|k]]]]]]; [| | | | | |lia]; cbn [normal_moment INR pow].
  - field.
  - field.
  - transitivity (sqrt PI / 3 * (r * r)); [field|]. rewrite Q. field.
  - field.
  - transitivity (sqrt PI / 3 * (r * r) * (r * r)); [field|]. rewrite Q. field.
  - field.
Qed.
Definition one_node : list R := [0].
Definition one_weight : list R := [sqrt PI].
Lemma one_exact : exact_to 1 one_node one_weight.
Proof. split; [reflexivity|]. intros k Hk. unfold one_node, one_weight, rsum. cbn [zip_with fold_right]. destruct k as [|[|k]]; [| |lia]; cbn [normal_moment INR pow]; ring. Qed.

(** ** Weights *)
Lemma product_in {V} (l : list V) d x : In x (product (repeat l d)) -> forall v, In v x -> In v l.
Proof.
  revert x; induction d as [|d IH]; intros x H v Hv; cbn [repeat product] in H; [destruct H as [<-|[]]; contradiction|].
  apply in_flat_map in H as (a & Ha & H). apply in_map_iff in H as (y & <- & H). destruct Hv as [<-|Hv]; [exact Ha|]. exact (IH y H v Hv).
Qed.
Lemma prod_pos l : Forall (fun x => 0 < x) l -> 0 < fold_right Rmult 1 l.
Proof. induction 1 as [|x l Hx _ IH]; cbn [fold_right]; [lra|]. now apply Rmult_lt_0_compat. Qed.
Lemma gauss_hermite_shape nodes ws mean cov rule : gauss_hermite nodes ws mean cov = Ok rule -> length ws = length nodes -> nodes <> [] -> Forall (fun w => 0 < w) ws ->
  length (snd rule) = length (fst rule) /\ fst rule <> [] /\ Forall (fun w => 0 < w) (snd rule) /\ Forall (fun t => length t = length mean) (fst rule).
Proof.
  intros H HL HN HP. unfold gauss_hermite in H. destruct (Nat.eqb_spec (length (w_rows cov)) (w_cols cov)) as [E1|]; [|discriminate]. destruct (chol (w_cols cov) (at_ cov)) as [L|] eqn:EC; [|discriminate]. destruct (Nat.eqb_spec (w_cols cov) (length mean)) as [E2|]; [|discriminate].
  injection H as <-. cbn [fst snd]. rewrite !map_length. split; [exact (product_count ws nodes (length mean) HL)|]. split.
  - destruct (product (repeat nodes (length mean))) eqn:E; [|discriminate]. exfalso. revert E. generalize (length mean) as d. induction d as [|d IH]; [discriminate|]. cbn [repeat product]. destruct nodes as [|a nodes]; [congruence|]. cbn [flat_map]. intro E. apply app_eq_nil in E as [E _]. apply map_eq_nil in E. now apply IH.
  - split.
    + apply Forall_forall. intros w Hw. apply in_map_iff in Hw as (v & <- & Hv). apply in_map_iff in Hv as (l & <- & Hl). apply Rmult_lt_0_compat; [|apply exp_pos]. apply prod_pos. apply Forall_forall. intros x Hx. rewrite Forall_forall in HP. apply HP. exact (product_in ws _ l Hl x Hx).
    + apply Forall_forall. intros t Ht. apply in_map_iff in Ht as (x & <- & _). now rewrite map_length, seq_length.
Qed.
Lemma marginal_integral p rule row : length (snd rule) = length (fst rule) -> marginal_likelihood p (fst rule) (snd rule) row = integral rule (fun t => likelihood p t row).
Proof.
  destruct rule as [ps ws]. unfold marginal_likelihood, integral. cbn [fst snd]. intros _. f_equal. revert ws; induction ps as [|t ps IH]; intros [|w ws]; try reflexivity. cbn [zip_with]. now rewrite IH.
Qed.
Lemma integral_le rule f g : Forall (fun w => 0 < w) (snd rule) -> (forall y, In y (fst rule) -> f y <= g y) -> integral rule f <= integral rule g.
Proof.
  destruct rule as [ps ws]. unfold integral. cbn [fst snd]. intros HW. revert ps; induction HW as [|w ws Hw _ IH]; intros [|y ps] H; try (cbn; lra). cbn [zip_with]. rewrite !rsum_cons. apply Rplus_le_compat; [apply Rmult_le_compat_l; [lra|apply H; now left]|]. apply IH. intros z Hz. apply H. now right.
Qed.
Lemma integral_pos rule f : length (snd rule) = length (fst rule) -> fst rule <> [] -> Forall (fun w => 0 < w) (snd rule) -> (forall y, In y (fst rule) -> 0 < f y) -> 0 < integral rule f.
Proof.
  destruct rule as [ps ws]. unfold integral. cbn [fst snd]. intros HL HN HW HF. destruct ps as [|y ps]; [congruence|]. destruct ws as [|w ws]; [discriminate|]. cbn [zip_with]. rewrite rsum_cons. inversion HW as [|? ? W1 W2]; subst.
  apply Rplus_lt_le_0_compat; [apply Rmult_lt_0_compat; [exact W1|apply HF; now left]|].
  clear HL HN. assert (G : forall ps, (forall z, In z ps -> 0 < f z) -> 0 <= rsum (zip_with (fun y w => w * f y) ps ws)).
  { clear - W2. induction W2 as [|w ws Hw _ IH]; intros [|z ps] H; try (cbn; lra). cbn [zip_with]. rewrite rsum_cons. pose proof (Rmult_lt_0_compat _ _ Hw (H z (or_introl eq_refl))). specialize (IH ps (fun y Hy => H y (or_intror Hy))). lra. }
  apply G. intros z Hz. apply HF. now right.
Qed.
Lemma no_answers_likelihood p t row : Forall (fun c => answer c = None) row -> likelihood p t row = 1.
Proof.
  intro H. unfold likelihood. assert (G : Forall (fun x => x = 1) (mapi (fun i c => match answer c with None => 1 | Some k => p t i k end) row)).
  { apply Forall_forall. intros x Hx. apply In_nth_error in Hx as [i Hi]. rewrite nth_error_mapi in Hi. destruct (nth_error row i) as [c|] eqn:E; [|discriminate]. rewrite Forall_forall in H. pose proof (H c (nth_error_In _ _ E)) as Q. cbn in Hi. rewrite Q in Hi. congruence. }
  induction G as [|x l -> _ IH]; [reflexivity|]. cbn [rprod]. rewrite IH. ring.
Qed.
