(** Items along a line. *)
From Verif Require Import Base BaseFacts RBase RFacts M_Data M_Logit M_Lik M_Est P_Logit P_Nest1 P_Info3 P_Spline4 S_Logit S_Lik S_Est S_Opt P_Opt1 S_Max.
Import List.
Local Open Scope R_scope.

(** What is used of an item with [K] categories, probabilities [q k x] and category slopes [s]. *)
Definition item_ok (K : nat) (q : nat -> R -> R) (s : nat -> R) : Prop := forall k, (k < K)%nat ->
  (forall x, 0 < q k x <= 1) /\ continuity (q k) /\
  (forall j, (j < K)%nat -> s k < s j -> exists r c, 0 < r /\ forall x, ln (q k x) <= c - r * x) /\
  (forall j, (j < K)%nat -> s j < s k -> exists r c, 0 < r /\ forall x, ln (q k x) <= c + r * x) /\
  ((forall j, (j < K)%nat -> s j <= s k) -> forall x y, x < y -> q k x <= q k y /\ ((exists j, (j < K)%nat /\ s j < s k) -> q k x < q k y)) /\
  ((forall j, (j < K)%nat -> s k <= s j) -> forall x y, x < y -> q k y <= q k x /\ ((exists j, (j < K)%nat /\ s k < s j) -> q k y < q k x)) /\
  (forall j, (j < K)%nat -> s j <> s k -> forall x y, (forall k', (k' < K)%nat -> q k' x = q k' y) -> x = y).

Lemma ln_le a b : 0 < a -> a <= b -> ln a <= ln b.
Proof. intros Ha [H| ->]; [left; now apply ln_increasing|right; reflexivity]. Qed.
Lemma sumn_lt n f g : (forall i, (i < n)%nat -> f i <= g i) -> (exists i, (i < n)%nat /\ f i < g i) -> sumn n f < sumn n g.
Proof.
  intros H (i & Hi & Hl). assert (0 < sumn n g - sumn n f); [|lra]. rewrite <- sumn_minus. apply (Rlt_le_trans _ (g i - f i)); [lra|].
  apply (sumn_term_le n (fun j => g j - f j) i); [|exact Hi]. intros j Hj. specialize (H j Hj). lra.
Qed.
Lemma cp_inverse K z k : (k < K)%nat -> category_probability K z k = / sumn K (fun j => exp (z j - z k)).
Proof.
  intro Hk. rewrite <- (cp_shift K z (fun j => z j - z k) (z k) k) by (auto; reflexivity). unfold category_probability. replace (z k - z k) with 0 by ring. rewrite exp_0. unfold Rdiv. ring.
Qed.
Lemma cp_le_ratio K z k j : (k < K)%nat -> (j < K)%nat -> category_probability K z k <= exp (z k - z j).
Proof.
  intros Hk Hj. rewrite cp_inverse by exact Hk. replace (exp (z k - z j)) with (/ exp (z j - z k)) by (rewrite <- exp_Ropp; f_equal; ring). apply Rinv_le_contravar; [apply exp_pos|].
  apply (sumn_term_le K (fun j => exp (z j - z k)) j); [|exact Hj]. intros; left; apply exp_pos.
Qed.
Lemma sumn_continuity n (f : nat -> R -> R) : (forall i, (i < n)%nat -> continuity (f i)) -> continuity (fun x => sumn n (fun i => f i x)).
Proof.
  intro H. induction n as [|n IH]; intro x; [apply continuity_pt_const; intros a b; reflexivity|]. cbn [sumn]. apply (continuity_pt_plus (fun x => sumn n (fun i => f i x)) (f n)); [apply IH; intros; apply H; lia|apply H; lia].
Qed.
Lemma affine_continuity a b : continuity (fun x => a + x * b).
Proof. intro x. apply derivable_continuous_pt. exists (0 + 1 * b). exact (derivable_pt_lim_plus _ _ _ _ _ (derivable_pt_lim_const a x) (derivable_pt_lim_scal_right id x 1 b (derivable_pt_lim_id x))). Qed.
Lemma exp_continuity f : continuity f -> continuity (fun x => exp (f x)).
Proof. intros H x. apply (continuity_pt_comp f exp); [apply H|]. apply derivable_continuous_pt. apply derivable_pt_exp. Qed.
Lemma continuity_ext f g : (forall x, f x = g x) -> continuity f -> continuity g.
Proof. intros E H x. specialize (H x). intros eps He. destruct (H eps He) as (d & Hd & Hx). exists d. split; [exact Hd|]. intros y Hy. rewrite <- !E. now apply Hx. Qed.

(** ** Softmax items *)
Section Soft.
  Variables (K : nat) (c s : nat -> R).
  Definition soft_q (c s : nat -> R) (k : nat) (x : R) : R := category_probability K (fun j => c j + x * s j) k.
  Lemma soft_inverse k x : (k < K)%nat -> soft_q c s k x = / sumn K (fun j => exp (c j - c k + x * (s j - s k))).
  Proof using Type. intro Hk. unfold soft_q. rewrite cp_inverse by exact Hk. f_equal. apply sumn_ext. intros j _. f_equal. ring. Qed.
  Lemma soft_sum_pos k x : (k < K)%nat -> 1 <= sumn K (fun j => exp (c j - c k + x * (s j - s k))).
  Proof using Type.
    intro Hk. replace 1 with (exp (c k - c k + x * (s k - s k))) by (replace (c k - c k + x * (s k - s k)) with 0 by ring; apply exp_0).
    apply (sumn_term_le K (fun j => exp (c j - c k + x * (s j - s k))) k); [|exact Hk]. intros; left; apply exp_pos.
  Qed.
  Lemma soft_range k x : (k < K)%nat -> 0 < soft_q c s k x <= 1.
  Proof using Type.
    intro Hk. rewrite soft_inverse by exact Hk. pose proof (soft_sum_pos k x Hk). split; [apply Rinv_0_lt_compat; lra|]. rewrite <- Rinv_1. apply Rinv_le_contravar; lra.
  Qed.
  Lemma soft_continuity k : (k < K)%nat -> continuity (soft_q c s k).
  Proof using Type.
    intro Hk. apply (continuity_ext (fun x => / sumn K (fun j => exp (c j - c k + x * (s j - s k))))); [intro x; now rewrite soft_inverse|].
    intro x. apply (continuity_pt_inv (fun x => sumn K (fun j => exp (c j - c k + x * (s j - s k))))); [|pose proof (soft_sum_pos k x Hk); lra].
    apply (sumn_continuity K (fun j x => exp (c j - c k + x * (s j - s k)))). intros j _. apply exp_continuity. apply affine_continuity.
  Qed.
  Lemma soft_bound k j x : (k < K)%nat -> (j < K)%nat -> ln (soft_q c s k x) <= c k - c j + (s k - s j) * x.
  Proof using Type.
    intros Hk Hj. rewrite <- (ln_exp (c k - c j + (s k - s j) * x)). apply ln_le; [now apply soft_range|]. unfold soft_q. replace (c k - c j + (s k - s j) * x) with (c k + x * s k - (c j + x * s j)) by ring. now apply (cp_le_ratio K (fun j => c j + x * s j)).
  Qed.
  Lemma soft_injective k j x y : (k < K)%nat -> (j < K)%nat -> s j <> s k -> (forall k', (k' < K)%nat -> soft_q c s k' x = soft_q c s k' y) -> x = y.
  Proof using Type.
    intros Hk Hj Hs H. assert (E : forall x, soft_q c s k x = exp (c k - c j + x * (s k - s j)) * soft_q c s j x).
    { intro u. unfold soft_q, category_probability. replace (c k + u * s k) with (c k - c j + u * (s k - s j) + (c j + u * s j)) by ring. rewrite exp_plus. unfold Rdiv. ring. }
    pose proof (H k Hk) as E1. rewrite (E x), (E y), (H j Hj) in E1. apply Rmult_eq_reg_r in E1; [|pose proof (soft_range j y Hj); lra]. apply exp_inv in E1.
    apply (Rmult_eq_reg_r (s k - s j)); [lra|lra].
  Qed.
  Lemma soft_up k : (k < K)%nat -> (forall j, (j < K)%nat -> s j <= s k) -> forall x y, x < y -> soft_q c s k x <= soft_q c s k y /\ ((exists j, (j < K)%nat /\ s j < s k) -> soft_q c s k x < soft_q c s k y).
  Proof using Type.
    intros Hk Hs x y Hxy. rewrite !soft_inverse by exact Hk. pose proof (soft_sum_pos k x Hk) as Px. pose proof (soft_sum_pos k y Hk) as Py.
    assert (T : forall j, (j < K)%nat -> c j - c k + y * (s j - s k) <= c j - c k + x * (s j - s k)) by (intros j Hj; specialize (Hs j Hj); nra).
    assert (TE : forall j, (j < K)%nat -> exp (c j - c k + y * (s j - s k)) <= exp (c j - c k + x * (s j - s k))) by (intros j Hj; destruct (T j Hj) as [H| ->]; [left; now apply exp_increasing|right; reflexivity]).
    split; [apply Rinv_le_contravar; [lra|]; now apply sumn_le|]. intros (j & Hj & Hl). apply Rinv_lt_contravar; [apply Rmult_lt_0_compat; lra|]. apply sumn_lt; [exact TE|]. exists j. split; [exact Hj|]. apply exp_increasing. nra.
  Qed.
End Soft.
Lemma soft_reflect K c s k x : (k < K)%nat -> soft_q K c (fun j => - s j) k (- x) = soft_q K c s k x.
Proof. intro Hk. rewrite !soft_inverse by exact Hk. f_equal. apply sumn_ext. intros j _. f_equal. ring. Qed.
Lemma soft_item K c s : item_ok K (soft_q K c s) s.
Proof.
  intros k Hk. split; [intro x; now apply soft_range|]. split; [now apply soft_continuity|]. split; [|split; [|split; [|split]]].
  - intros j Hj Hs. exists (s j - s k), (c k - c j). split; [lra|]. intro x. pose proof (soft_bound K c s k j x Hk Hj). lra.
  - intros j Hj Hs. exists (s k - s j), (c k - c j). split; [lra|]. intro x. pose proof (soft_bound K c s k j x Hk Hj). lra.
  - now apply soft_up.
  - intros Hs x y Hxy. destruct (soft_up K c (fun j => - s j) k Hk ltac:(intros j Hj; specialize (Hs j Hj); lra) (- y) (- x) ltac:(lra)) as [A B]. rewrite !soft_reflect in A, B by exact Hk. split; [exact A|]. intros (j & Hj & Hl). apply B. exists j. split; [exact Hj|lra].
  - intros j Hj Hs x y H. now apply (soft_injective K c s k j x y).
Qed.
Lemma item_ok_ext K q q' s s' : (forall k x, (k < K)%nat -> q k x = q' k x) -> (forall k, (k < K)%nat -> s k = s' k) -> item_ok K q s -> item_ok K q' s'.
Proof.
  intros Eq Es H k Hk. destruct (H k Hk) as (H1 & H2 & H3 & H4 & H5 & H6 & H7). split; [intro x; rewrite <- Eq by exact Hk; apply H1|]. split; [apply (continuity_ext (q k)); auto|]. split; [|split; [|split; [|split]]].
  - intros j Hj Hs. rewrite <- !Es in Hs by assumption. destruct (H3 j Hj Hs) as (r & c & Hr & Hx). exists r, c. split; [exact Hr|]. intro x. rewrite <- Eq by exact Hk. apply Hx.
  - intros j Hj Hs. rewrite <- !Es in Hs by assumption. destruct (H4 j Hj Hs) as (r & c & Hr & Hx). exists r, c. split; [exact Hr|]. intro x. rewrite <- Eq by exact Hk. apply Hx.
  - intros Hs x y Hxy. rewrite <- !Eq by exact Hk. destruct (H5 ltac:(intros j Hj; rewrite !Es by assumption; now apply Hs) x y Hxy) as [A B]. split; [exact A|]. intros (j & Hj & Hl). apply B. exists j. split; [exact Hj|]. now rewrite !Es.
  - intros Hs x y Hxy. rewrite <- !Eq by exact Hk. destruct (H6 ltac:(intros j Hj; rewrite !Es by assumption; now apply Hs) x y Hxy) as [A B]. split; [exact A|]. intros (j & Hj & Hl). apply B. exists j. split; [exact Hj|]. now rewrite !Es.
  - intros j Hj Hs x y Hxy. rewrite <- !Es in Hs by assumption. apply (H7 j Hj Hs x y). intros k' Hk'. rewrite !Eq by exact Hk'. now apply Hxy.
Qed.
