(** Sums of logarithms of softmax probabilities with linear logits: when there is a maximum. *)
From Verif Require Import Base BaseFacts RBase RFacts S_Logit P_Logit P_Opt1 P_Opt2 P_Max1 P_Max3 P_Max4 P_Max5 P_Max6 P_Max7 S_Max P_Ex1.
Import List.
Local Open Scope R_scope.

Definition dot (n : nat) (w : nat -> R) (v : list R) : R := sumn n (fun e => w e * nth e v 0).
Lemma dot_line n w t v x : dot n w (line n t v x) = dot n w t + x * dot n w v.
Proof. unfold dot. rewrite <- sumn_scal, <- sumn_plus. apply sumn_ext. intros e He. rewrite line_nth by exact He. ring. Qed.
Lemma dot_scaled n w t N : dot n w (map (fun x => x / N) t) = dot n w t / N.
Proof. unfold dot. rewrite <- sumn_div. apply sumn_ext. intros e _. rewrite nth_scaled. unfold Rdiv. ring. Qed.
Lemma ucont_dot m n w : ucont m (fun v => dot n w v).
Proof. unfold dot. apply (ucont_sumn m n (fun e v => w e * nth e v 0)). intros e _. apply ucont_scal, ucont_nth. Qed.
Lemma ln_max_continuity : continuity (fun y => ln (Rmax 1 y)).
Proof.
  intro x. apply (continuity_pt_comp (fun y => Rmax 1 y) ln); [|apply derivable_continuous_pt; exists (/ Rmax 1 x); apply derivable_pt_lim_ln; pose proof (Rmax_l 1 x); lra].
  apply (continuity_ext (fun y => / 2 * (1 + y + Rabs (1 - y)))).
  - intro y. unfold Rmax. destruct (Rle_dec 1 y); [rewrite Rabs_left1|rewrite Rabs_right]; lra.
  - intro y. apply (continuity_pt_scal (fun y => 1 + y + Rabs (1 - y))). apply (continuity_pt_plus (fun y => 1 + y) (fun y => Rabs (1 - y))).
    + apply (continuity_pt_plus (fun _ => 1) id); [apply continuity_pt_const; intros ? ?; reflexivity|apply derivable_continuous_pt, derivable_pt_id].
    + apply (continuity_pt_comp (fun y => 1 - y) Rabs); [|apply Rcontinuity_abs]. apply (continuity_pt_minus (fun _ => 1) id); [apply continuity_pt_const; intros ? ?; reflexivity|apply derivable_continuous_pt, derivable_pt_id].
Qed.

Section CELL.
Variables (n K k : nat) (w : nat -> nat -> R) (o : nat -> R).
Hypothesis Hk : (k < K)%nat.
Definition logit (v : list R) (j : nat) : R := dot n (w j) v + o j.
Definition cellv (v : list R) : R := ln (category_probability K (logit v) k).
Lemma cell_sum v : cellv v = - ln (sumn K (fun j => exp (logit v j - logit v k))).
Proof using Hk. unfold cellv. rewrite cp_inverse by exact Hk. apply ln_Rinv. apply sumn_pos; [lia|]. intros; apply exp_pos. Qed.
Lemma cell_sum_ge v : 1 <= sumn K (fun j => exp (logit v j - logit v k)).
Proof using Hk. pose proof (sumn_term_le K (fun j => exp (logit v j - logit v k)) k ltac:(intros; left; apply exp_pos) Hk) as H. cbv beta in H. rewrite Rminus_diag_eq, exp_0 in H by reflexivity. exact H. Qed.
Lemma cell_nonpos v : cellv v <= 0.
Proof using Hk. rewrite cell_sum. pose proof (ln_le 1 _ ltac:(lra) (cell_sum_ge v)) as H. rewrite ln_1 in H. lra. Qed.
Lemma cell_ucont m : ucont m cellv.
Proof using Hk.
  apply (ucont_ext m (fun v => - ln (Rmax 1 (sumn K (fun j => exp (logit v j - logit v k)))))).
  - intros v _. rewrite cell_sum, Rmax_right by apply cell_sum_ge. reflexivity.
  - apply ucont_opp. apply (ucont_comp m (fun v => sumn K (fun j => exp (logit v j - logit v k))) (fun y => ln (Rmax 1 y)) ln_max_continuity).
    apply (ucont_sumn m K (fun j v => exp (logit v j - logit v k))). intros j _. apply ucont_exp, ucont_minus; (apply ucont_plus; [apply ucont_dot|apply ucont_const]).
Qed.
Definition cpull (v : list R) : R := / INR K * sumn K (fun j => Rmax 0 (dot n (w j) v - dot n (w k) v)).
Definition room : R := / INR K * sumn K (fun j => Rabs (o k - o j)).
Lemma cell_bound v : cellv v <= room - cpull v.
Proof using Hk.
  assert (HK : 0 < INR K) by (apply lt_0_INR; lia). apply (Rmult_le_reg_l (INR K)); [exact HK|]. unfold room, cpull. rewrite Rmult_minus_distr_l, <- !Rmult_assoc, Rinv_r, !Rmult_1_l by lra.
  rewrite <- sumn_minus. rewrite <- (sumn_const K (cellv v)). apply sumn_le. intros j Hj. pose proof (cell_nonpos v) as N. pose proof (Rabs_pos (o k - o j)) as A0. pose proof (Rle_abs (o k - o j)) as A1.
  assert (B : cellv v <= logit v k - logit v j). { unfold cellv. rewrite <- (ln_exp (logit v k - logit v j)). apply ln_le; [apply category_probability_pos; lia|now apply cp_le_ratio]. }
  unfold logit in B. unfold Rmax. destruct (Rle_dec 0 (dot n (w j) v - dot n (w k) v)); lra.
Qed.
Lemma cpull_nonneg v : 0 <= cpull v.
Proof using Hk. apply Rmult_le_pos; [left; apply Rinv_0_lt_compat, lt_0_INR; lia|]. apply sumn_nonneg. intros; apply Rmax_l. Qed.
Lemma cpull_zero v : cpull v = 0 -> forall j, (j < K)%nat -> dot n (w j) v <= dot n (w k) v.
Proof using Hk.
  intros E j Hj. unfold cpull in E. assert (HK : 0 < / INR K) by (apply Rinv_0_lt_compat, lt_0_INR; lia). apply Rmult_integral in E. destruct E as [E|E]; [lra|].
  pose proof (sumn_term_le K (fun j => Rmax 0 (dot n (w j) v - dot n (w k) v)) j ltac:(intros; apply Rmax_l) Hj) as H. cbv beta in H. rewrite E in H. pose proof (Rmax_r 0 (dot n (w j) v - dot n (w k) v)). lra.
Qed.
Lemma cpull_ucont m : ucont m cpull.
Proof using Type.
  unfold cpull. apply ucont_scal. apply (ucont_sumn m K (fun j v => Rmax 0 (dot n (w j) v - dot n (w k) v))). intros j _. apply ucont_max; [apply ucont_const|]. apply ucont_minus; apply ucont_dot.
Qed.
Lemma cpull_scaled v N : 0 < N -> cpull (map (fun x => x / N) v) = cpull v / N.
Proof using Type.
  intro HN. unfold cpull. unfold Rdiv. rewrite Rmult_assoc. f_equal. change (sumn K (fun j => Rmax 0 (dot n (w j) v - dot n (w k) v)) * / N) with (sumn K (fun j => Rmax 0 (dot n (w j) v - dot n (w k) v)) / N). rewrite <- sumn_div. apply sumn_ext. intros j _.
  change (fun x => x * / N) with (fun x => x / N). rewrite !dot_scaled. pose proof (Rinv_0_lt_compat N HN). unfold Rdiv. unfold Rmax.
  destruct (Rle_dec 0 (dot n (w j) v * / N - dot n (w k) v * / N)); destruct (Rle_dec 0 (dot n (w j) v - dot n (w k) v)); nra.
Qed.
Lemma cell_line_sum t v x : cellv (line n t v x) = - ln (sumn K (fun j => exp (logit t j - logit t k + x * (dot n (w j) v - dot n (w k) v)))).
Proof using Hk. rewrite cell_sum. do 2 f_equal. apply sumn_ext. intros j _. f_equal. unfold logit. rewrite !dot_line. ring. Qed.
Lemma cell_still t v x : (forall j, (j < K)%nat -> dot n (w j) v = dot n (w k) v) -> cellv (line n t v x) = cellv t.
Proof using Hk. intro H. rewrite cell_line_sum, cell_sum. do 2 f_equal. apply sumn_ext. intros j Hj. rewrite (H j Hj). f_equal. ring. Qed.
Lemma cell_up t v : (forall j, (j < K)%nat -> dot n (w j) v <= dot n (w k) v) -> cellv t <= cellv (line n t v 1).
Proof using Hk.
  intro H. rewrite cell_line_sum, cell_sum. apply Ropp_le_contravar. apply ln_le; [apply sumn_pos; [lia|intros; apply exp_pos]|]. apply sumn_le. intros j Hj. specialize (H j Hj).
  destruct (Req_dec (dot n (w j) v) (dot n (w k) v)) as [E|E]; [rewrite E; right; f_equal; ring|left; apply exp_increasing; lra].
Qed.
Lemma cell_up_strict t v : (forall j, (j < K)%nat -> dot n (w j) v <= dot n (w k) v) -> (exists j, (j < K)%nat /\ dot n (w j) v < dot n (w k) v) -> cellv t < cellv (line n t v 1).
Proof using Hk.
  intros H (j0 & Hj0 & Hl). rewrite cell_line_sum, cell_sum. apply Ropp_lt_contravar. apply ln_increasing; [apply sumn_pos; [lia|intros; apply exp_pos]|]. apply sumn_lt.
  - intros j Hj. specialize (H j Hj). destruct (Req_dec (dot n (w j) v) (dot n (w k) v)) as [E|E]; [rewrite E; right; f_equal; ring|left; apply exp_increasing; lra].
  - exists j0. split; [exact Hj0|]. apply exp_increasing. lra.
Qed.
End CELL.

Section CELLS.
Variables (n N I : nat) (K k : nat -> nat -> nat) (w : nat -> nat -> nat -> nat -> R) (o : nat -> nat -> nat -> R).
Hypothesis Hk : forall r i, (r < N)%nat -> (i < I)%nat -> (k r i < K r i)%nat.
Definition cells (v : list R) : R := sumn N (fun r => sumn I (fun i => cellv n (K r i) (k r i) (w r i) (o r i) v)).
Definition pulls (v : list R) : R := sumn N (fun r => sumn I (fun i => cpull n (K r i) (k r i) (w r i) v)).
Lemma pulls_nonneg v : 0 <= pulls v.
Proof using Hk. apply sumn_nonneg. intros r Hr. apply sumn_nonneg. intros i Hi. apply cpull_nonneg. now apply Hk. Qed.
Lemma pulls_zero v r i : pulls v = 0 -> (r < N)%nat -> (i < I)%nat -> cpull n (K r i) (k r i) (w r i) v = 0.
Proof using Hk.
  intros E Hr Hi. assert (A : sumn I (fun i => cpull n (K r i) (k r i) (w r i) v) = 0).
  { apply Rle_antisym; [|apply sumn_nonneg; intros; apply cpull_nonneg; now apply Hk]. rewrite <- E. apply (sumn_term_le N (fun r => sumn I (fun i => cpull n (K r i) (k r i) (w r i) v)) r); [|exact Hr]. intros r' Hr'. apply sumn_nonneg. intros; apply cpull_nonneg; now apply Hk. }
  apply Rle_antisym; [|apply cpull_nonneg; now apply Hk]. rewrite <- A. apply (sumn_term_le I (fun i => cpull n (K r i) (k r i) (w r i) v) i); [|exact Hi]. intros; apply cpull_nonneg; now apply Hk.
Qed.
(** Either all cells have a direction in common in which they are favoured and one of them strictly, or a maximum exists. *)
Definition separates (u : list R) : Prop :=
  (forall r i j, (r < N)%nat -> (i < I)%nat -> (j < K r i)%nat -> dot n (w r i j) u <= dot n (w r i (k r i)) u) /\
  exists r i j, (r < N)%nat /\ (i < I)%nat /\ (j < K r i)%nat /\ dot n (w r i j) u < dot n (w r i (k r i)) u.
Lemma cells_none u t : separates u -> length t = n -> cells t < cells (line n t u 1).
Proof using Hk.
  intros (H & r & i & j & Hr & Hi & Hj & Hl) Lt. unfold cells. assert (U : forall r i, (r < N)%nat -> (i < I)%nat -> cellv n (K r i) (k r i) (w r i) (o r i) t <= cellv n (K r i) (k r i) (w r i) (o r i) (line n t u 1)) by (intros; apply cell_up; auto).
  apply sumn_lt; [intros; apply sumn_le; auto|]. exists r. split; [exact Hr|]. apply sumn_lt; [auto|]. exists i. split; [exact Hi|]. apply cell_up_strict; auto. exists j. auto.
Qed.
Lemma cells_exists : (forall u, length u = n -> ~ separates u) -> exists v, length v = n /\ forall v', length v' = n -> cells v' <= cells v.
Proof using Hk.
  intro HN. apply (attained n cells cells pulls 1 (sumn N (fun r => sumn I (fun i => room (K r i) (k r i) (o r i))))).
  - apply (ucont_sumn n N (fun r v => sumn I (fun i => cellv n (K r i) (k r i) (w r i) (o r i) v))). intros r Hr. apply (ucont_sumn n I (fun i v => cellv n (K r i) (k r i) (w r i) (o r i) v)). intros i Hi. apply cell_ucont. now apply Hk.
  - apply (ucont_sumn n N (fun r v => sumn I (fun i => cpull n (K r i) (k r i) (w r i) v))). intros r Hr. apply (ucont_sumn n I (fun i v => cpull n (K r i) (k r i) (w r i) v)). intros i Hi. apply cpull_ucont.
  - intros t _. apply pulls_nonneg.
  - intros t M _ HM. unfold pulls. rewrite <- sumn_div. apply sumn_ext. intros r Hr. rewrite <- sumn_div. apply sumn_ext. intros i Hi. apply cpull_scaled. exact HM.
  - auto.
  - lra.
  - intros t _. rewrite Rmult_1_l. unfold cells, pulls. rewrite <- sumn_minus. apply sumn_le. intros r Hr. rewrite <- sumn_minus. apply sumn_le. intros i Hi. apply cell_bound. now apply Hk.
  - intros v t x Lv Lt Pv. unfold cells. apply sumn_ext. intros r Hr. apply sumn_ext. intros i Hi. apply cell_still; [now apply Hk|]. intros j Hj.
    assert (A : forall r i j, (r < N)%nat -> (i < I)%nat -> (j < K r i)%nat -> dot n (w r i j) v <= dot n (w r i (k r i)) v) by (intros r' i' j' Hr' Hi' Hj'; apply (cpull_zero n (K r' i')); auto; now apply pulls_zero).
    destruct (Rle_lt_dec (dot n (w r i (k r i)) v) (dot n (w r i j) v)) as [H|H]; [specialize (A r i j Hr Hi Hj); lra|]. exfalso. apply (HN v Lv). split; [exact A|]. exists r, i, j. auto.
Qed.
Lemma cells_iff : (exists v, length v = n /\ forall v', length v' = n -> cells v' <= cells v) <-> ~ exists u, length u = n /\ separates u.
Proof using Hk.
  split.
  - intros (v & Lv & Hv) (u & Lu & Hu). pose proof (cells_none u v Hu Lv). specialize (Hv (line n v u 1) ltac:(apply line_length)). lra.
  - intro H. apply cells_exists. intros u Lu Hu. apply H. exists u. auto.
Qed.
End CELLS.
