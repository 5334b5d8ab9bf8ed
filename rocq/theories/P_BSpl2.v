(** Proofs: knot vectors, basis rows and the splines of a monotone B-spline model. *)
From Coq Require Import String.
From Verif Require Import Base BaseFacts RBase RFacts M_Logit S_Logit M_Mono M_Scale M_BSpl S_BSpl P_Logit P_Logit2 P_Mono1 P_Mono8 P_BSpl1.
Import List.
Local Open Scope R_scope.

(** The knots, continued by ones. *)
Definition kseq (l : list R) (j : nat) : R := if (j <? length l)%nat then nth j l 0 else 1.
Lemma kseq_in l j : (j < length l)%nat -> kseq l j = nth j l 0.
Proof. intro H. unfold kseq. destruct (Nat.ltb_spec j (length l)); [reflexivity|lia]. Qed.
Lemma bbasis_ext t u p : forall i x, (forall j, (i <= j <= S i + p)%nat -> t j = u j) -> bbasis t p i x = bbasis u p i x.
Proof.
  induction p as [|p IH]; intros i x H.
  - cbn [bbasis]. rewrite (H i), (H (S i)) by lia. reflexivity.
  - cbn [bbasis]. rewrite (H i), (H (S i)), (H (i + S p)%nat), (H (S i + S p)%nat) by lia.
    rewrite (IH i x), (IH (S i) x) by (intros; apply H; lia). reflexivity.
Qed.
Definition user_knots (knots : option (list R)) : list R := match knots with Some k => k | None => default_knots end.
Lemma knot_vector_length p knots : length (knot_vector p knots) = (2 * (p + 1) + length (user_knots knots))%nat.
Proof. unfold knot_vector, user_knots. rewrite !app_length, !repeat_length, map_length. lia. Qed.
Lemma n_bases_knots p knots : n_bases p (knot_vector p knots) = (length (user_knots knots) + (p + 1))%nat.
Proof. unfold n_bases. rewrite knot_vector_length. lia. Qed.
Lemma kseq_knots p knots j : kseq (knot_vector p knots) j =
  if (j <? p + 1)%nat then 0 else if (j <? p + 1 + length (user_knots knots))%nat then logistic (nth (j - (p + 1)) (user_knots knots) 0) else 1.
Proof.
  unfold kseq. rewrite knot_vector_length. unfold knot_vector. fold (user_knots knots). set (u := user_knots knots).
  destruct (Nat.ltb_spec j (p + 1)) as [H|H].
  - destruct (Nat.ltb_spec j (2 * (p + 1) + length u)); [|lia]. rewrite app_nth1 by (rewrite repeat_length; lia). apply nth_repeat.
  - destruct (Nat.ltb_spec j (p + 1 + length u)) as [H2|H2].
    + destruct (Nat.ltb_spec j (2 * (p + 1) + length u)); [|lia]. rewrite app_nth2 by (rewrite repeat_length; lia). rewrite repeat_length.
      rewrite app_nth1 by (rewrite map_length; lia). rewrite (nth_indep _ 0 (logistic 0)) by (rewrite map_length; lia). apply map_nth.
    + destruct (Nat.ltb_spec j (2 * (p + 1) + length u)); [|reflexivity]. rewrite app_nth2 by (rewrite repeat_length; lia). rewrite repeat_length.
      rewrite app_nth2 by (rewrite map_length; lia). rewrite map_length.
      rewrite (nth_indep _ 0 1) by (rewrite repeat_length; lia). apply nth_repeat.
Qed.
Lemma kseq_sorted p knots : in_order (user_knots knots) -> forall i j, (i <= j)%nat -> kseq (knot_vector p knots) i <= kseq (knot_vector p knots) j.
Proof.
  intros H i j Hij. rewrite !kseq_knots. set (u := user_knots knots) in *.
  destruct (Nat.ltb_spec i (p + 1)), (Nat.ltb_spec j (p + 1)), (Nat.ltb_spec i (p + 1 + length u)), (Nat.ltb_spec j (p + 1 + length u)); try lia; try lra;
    repeat match goal with |- context [logistic ?v] => lazymatch goal with _ : 0 < logistic v < 1 |- _ => fail | _ => pose proof (logistic_bounds v) end end; try lra.
  apply logistic_le_iff. apply H. lia.
Qed.

Section Rows.
  Variables (p : nat) (knots : option (list R)).
  Hypothesis ordered : in_order (user_knots knots).
  Let kv := knot_vector p knots.
  Let n := n_bases p kv.
  Let B (x : R) (b : nat) : R := bbasis (fun j => nth j kv 0) p b x.
  Lemma B_kseq x b : (b < n)%nat -> B x b = bbasis (kseq kv) p b x.
  Proof.
    intro H. unfold B. apply bbasis_ext. intros j Hj. rewrite kseq_in; [reflexivity|]. unfold n in H. unfold kv. rewrite knot_vector_length. unfold kv in H. rewrite n_bases_knots in H. lia.
  Qed.
  Lemma kseq_top : kseq kv n = 1.
  Proof.
    unfold n, kv. rewrite n_bases_knots, kseq_knots. destruct (Nat.ltb_spec (length (user_knots knots) + (p + 1)) (p + 1)).
    - lia.
    - destruct (Nat.ltb_spec (length (user_knots knots) + (p + 1)) (p + 1 + length (user_knots knots))); [lia|reflexivity].
  Qed.
  Lemma kseq_bottom j : (j <= p)%nat -> kseq kv j = 0.
  Proof. intro H. unfold kv. rewrite kseq_knots. destruct (Nat.ltb_spec j (p + 1)); [reflexivity|lia]. Qed.
  Lemma tail_B x j : (j <= n)%nat -> sumn n (B x) - sumn j (B x) = btail (kseq kv) n p j x.
  Proof.
    intro H. replace n with (j + (n - j))%nat at 1 by lia. rewrite sumn_split. unfold btail.
    rewrite (sumn_ext (n - j) (fun k => bbasis (kseq kv) p (j + k) x) (fun k => B x (j + k)%nat)); [ring|].
    intros k Hk. symmetry. apply B_kseq. lia.
  Qed.
  Lemma basis_nonneg x b : (b < n)%nat -> 0 <= B x b.
  Proof. intro H. rewrite B_kseq by auto. apply bbasis_nonneg. now apply kseq_sorted. Qed.
  Lemma basis_sum x : 0 <= x < 1 -> sumn n (B x) = 1.
  Proof.
    intros [H0 H1]. pose proof (tail_B x 0 ltac:(lia)) as E. cbn [sumn] in E. rewrite Rminus_0_r in E. rewrite E.
    apply btail_one; [now apply kseq_sorted|rewrite kseq_top; lra|]. rewrite kseq_bottom by lia. exact H0.
  Qed.
  Lemma tails_monotone x y j : x <= y -> y < 1 -> (j <= n)%nat -> sumn n (B x) - sumn j (B x) <= sumn n (B y) - sumn j (B y).
  Proof.
    intros Hxy Hy Hj. rewrite !tail_B by auto. apply btail_monotone; auto; [now apply kseq_sorted|]. rewrite kseq_top. exact Hy.
  Qed.
  Lemma tails_strict x y : (0 < p)%nat -> 0 <= x -> x < y -> y < 1 ->
    exists j, (j < n)%nat /\ sumn n (B x) - sumn j (B x) < sumn n (B y) - sumn j (B y).
  Proof.
    intros Hp Hx Hxy Hy. destruct (interval (kseq kv) n x) as (k & Hk & H1 & H2).
    - rewrite kseq_bottom by lia. exact Hx.
    - rewrite kseq_top. lra.
    - exists k. split; [exact Hk|]. rewrite !tail_B by lia. replace p with (S (p - 1)) by lia.
      apply btail_strict; auto; [intros i j Hij; now apply kseq_sorted|]. rewrite kseq_top. exact Hy.
  Qed.
  (** Splines with positive increments. *)
  Lemma spline_nonneg_increments c x y : (forall j, 0 <= c j) -> x <= y -> y < 1 ->
    sumn n (fun b => B x b * sumn (S b) c) <= sumn n (fun b => B y b * sumn (S b) c).
  Proof.
    intros Hc Hxy Hy. rewrite !abel. apply sumn_le. intros j Hj. apply Rmult_le_compat_l; [apply Hc|]. apply tails_monotone; auto; lia.
  Qed.
  Lemma spline_monotone c s t : s <= t -> spline_value p kv c s <= spline_value p kv c t.
  Proof.
    intro H. unfold spline_value. apply (spline_nonneg_increments (fun j => softplus (c j))).
    - intro j. left. apply softplus_pos.
    - now apply logistic_le_iff.
    - apply logistic_bounds.
  Qed.
  Lemma spline_increasing c s t : (0 < p)%nat -> s < t -> spline_value p kv c s < spline_value p kv c t.
  Proof.
    intros Hp H. unfold spline_value. pose proof (logistic_bounds s). pose proof (logistic_bounds t). pose proof (logistic_incr s t H).
    fold n. change (fun b => bbasis (fun j => nth j kv 0) p b (logistic s) * sumn (S b) (fun j => softplus (c j))) with (fun b => B (logistic s) b * sumn (S b) (fun j => softplus (c j))).
    change (fun b => bbasis (fun j => nth j kv 0) p b (logistic t) * sumn (S b) (fun j => softplus (c j))) with (fun b => B (logistic t) b * sumn (S b) (fun j => softplus (c j))).
    rewrite !abel. destruct (tails_strict (logistic s) (logistic t)) as (j & Hj & Hs); try lra; auto.
    apply Rminus_gt_0_lt. rewrite <- sumn_minus. apply sumn_pos_one with j; auto.
    - intros k Hk. pose proof (softplus_pos (c k)). pose proof (tails_monotone (logistic s) (logistic t) k ltac:(lra) ltac:(lra) ltac:(lia)). nra.
    - pose proof (softplus_pos (c j)). nra.
  Qed.
End Rows.
