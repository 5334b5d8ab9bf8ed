(** Lemmas about [RBase.v]. *)
From Verif Require Import Base BaseFacts RBase.
Local Open Scope R_scope.

(** Sums over initial segments. *)
Lemma sumn_ext n f g : (forall k, (k < n)%nat -> f k = g k) -> sumn n f = sumn n g.
Proof.
  induction n as [|n IH]; intro H; cbn; auto. rewrite IH, H; auto; intros; apply H; lia.
Qed.
Lemma sumn_plus n f g : sumn n (fun k => f k + g k) = sumn n f + sumn n g.
Proof. induction n as [|n IH]; cbn; [lra|]. rewrite IH; lra. Qed.
Lemma sumn_minus n f g : sumn n (fun k => f k - g k) = sumn n f - sumn n g.
Proof. induction n as [|n IH]; cbn; [lra|]. rewrite IH; lra. Qed.
Lemma sumn_scal n c f : sumn n (fun k => c * f k) = c * sumn n f.
Proof. induction n as [|n IH]; cbn; [lra|]. rewrite IH; lra. Qed.
Lemma sumn_scal_r n c f : sumn n (fun k => f k * c) = sumn n f * c.
Proof. induction n as [|n IH]; cbn; [lra|]. rewrite IH; lra. Qed.
Lemma sumn_div n c f : sumn n (fun k => f k / c) = sumn n f / c.
Proof. apply sumn_scal_r. Qed.
Lemma sumn_opp n f : sumn n (fun k => - f k) = - sumn n f.
Proof. induction n as [|n IH]; cbn; [lra|]. rewrite IH; lra. Qed.
Lemma sumn_0 n : sumn n (fun _ => 0) = 0.
Proof. induction n as [|n IH]; cbn; [lra|]. rewrite IH; lra. Qed.
Lemma sumn_const n c : sumn n (fun _ => c) = INR n * c.
Proof. induction n as [|n IH]; [cbn; lra|]. cbn [sumn]. rewrite IH, S_INR; lra. Qed.
Lemma sumn_le n f g : (forall k, (k < n)%nat -> f k <= g k) -> sumn n f <= sumn n g.
Proof.
  induction n as [|n IH]; intro H; cbn; [lra|].
  apply Rplus_le_compat; [apply IH; intros; apply H; lia|apply H; lia].
Qed.
Lemma sumn_nonneg n f : (forall k, (k < n)%nat -> 0 <= f k) -> 0 <= sumn n f.
Proof. intro H. rewrite <- (sumn_0 n). now apply sumn_le. Qed.
Lemma sumn_pos_one n f j : (forall k, (k < n)%nat -> 0 <= f k) -> (j < n)%nat -> 0 < f j -> 0 < sumn n f.
Proof.
  induction n as [|n IH]; intros H Hj Hf; [lia|]. cbn.
  destruct (Nat.eq_dec j n) as [->|Hne].
  - assert (0 <= sumn n f) by (apply sumn_nonneg; intros; apply H; lia). lra.
  - assert (0 < sumn n f) by (apply IH; [intros; apply H; lia|lia|auto]).
    assert (0 <= f n) by (apply H; lia). lra.
Qed.
Lemma sumn_pos n f : (0 < n)%nat -> (forall k, (k < n)%nat -> 0 < f k) -> 0 < sumn n f.
Proof.
  intros Hn H. apply sumn_pos_one with O; auto. intros; left; auto.
Qed.
Lemma sumn_term_le n f j : (forall k, (k < n)%nat -> 0 <= f k) -> (j < n)%nat -> f j <= sumn n f.
Proof.
  induction n as [|n IH]; intros H Hj; [lia|]. cbn.
  destruct (Nat.eq_dec j n) as [->|Hne].
  - assert (0 <= sumn n f) by (apply sumn_nonneg; intros; apply H; lia). lra.
  - assert (f j <= sumn n f) by (apply IH; [intros; apply H; lia|lia]).
    assert (0 <= f n) by (apply H; lia). lra.
Qed.
Lemma sumn_swap n m (f : nat -> nat -> R) :
  sumn n (fun i => sumn m (fun j => f i j)) = sumn m (fun j => sumn n (fun i => f i j)).
Proof.
  induction n as [|n IH]; cbn.
  - now rewrite sumn_0.
  - rewrite IH. now rewrite <- sumn_plus.
Qed.
Lemma sumn_S_first n f : sumn (S n) f = f O + sumn n (fun k => f (S k)).
Proof. induction n as [|n IH]; [cbn; lra|]. cbn [sumn] in *. rewrite IH. lra. Qed.
Lemma sumn_split n m f : sumn (n + m) f = sumn n f + sumn m (fun k => f (n + k)%nat).
Proof.
  induction m as [|m IH]; cbn; [rewrite Nat.add_0_r; lra|].
  rewrite Nat.add_succ_r; cbn. rewrite IH; lra.
Qed.
Lemma sumn_truncate n m f : (n <= m)%nat -> (forall k, (n <= k < m)%nat -> f k = 0) -> sumn m f = sumn n f.
Proof.
  intros Hnm H. replace m with (n + (m - n))%nat by lia. rewrite sumn_split.
  rewrite (sumn_ext (m - n) _ (fun _ => 0)), sumn_0; [lra|].
  intros k Hk; apply H; lia.
Qed.
Lemma sumn_single n j f : (j < n)%nat -> (forall k, (k < n)%nat -> k <> j -> f k = 0) -> sumn n f = f j.
Proof.
  induction n as [|n IH]; intros Hj H; [lia|]. cbn.
  destruct (Nat.eq_dec j n) as [->|Hne].
  - rewrite (sumn_ext n f (fun _ => 0)), sumn_0; [lra|]. intros; apply H; lia.
  - rewrite IH by (lia || (intros; apply H; lia)). rewrite (H n) by lia. lra.
Qed.
Lemma sumn_telescope n f : sumn n (fun k => f k - f (S k)) = f O - f n.
Proof. induction n as [|n IH]; cbn; [lra|]. rewrite IH; lra. Qed.
Lemma sumn_mul n m f g : sumn n f * sumn m g = sumn n (fun i => sumn m (fun j => f i * g j)).
Proof.
  rewrite <- sumn_scal_r. apply sumn_ext; intros i _. now rewrite sumn_scal.
Qed.

Lemma rsum_app a b : rsum (a ++ b) = rsum a + rsum b.
Proof. induction a as [|x a IH]; cbn; [lra|]. rewrite IH; lra. Qed.
Lemma rsum_nth l : rsum l = sumn (length l) (fun k => nth k l 0).
Proof.
  induction l as [|x l IH]; [reflexivity|]. cbn [length rsum]. rewrite sumn_S_first. cbn [nth].
  now rewrite IH.
Qed.
Lemma rsum_map_seq f s n : rsum (map f (seq s n)) = sumn n (fun k => f (s + k)%nat).
Proof.
  revert s; induction n as [|n IH]; intro s; [reflexivity|].
  cbn [seq map rsum]. rewrite IH, sumn_S_first, Nat.add_0_r. f_equal.
  apply sumn_ext; intros k _. f_equal; lia.
Qed.
(** Sum of a list whose entries are known by index. *)
Lemma rsum_index l n f : length l = n -> (forall k, (k < n)%nat -> nth_error l k = Some (f k)) -> rsum l = sumn n f.
Proof.
  intros Hl H. rewrite rsum_nth, Hl. apply sumn_ext; intros k Hk.
  specialize (H k Hk). now apply nth_error_nth with (d := 0) in H.
Qed.
Lemma osum_index l n f : length l = n -> (forall k, (k < n)%nat -> nth_error l k = Some (Some (f k))) ->
  osum l = Some (sumn n f).
Proof.
  revert n f; induction l as [|x l IH]; intros n f Hl H; cbn in Hl; subst n; [reflexivity|].
  cbn [osum]. pose proof (H O ltac:(lia)) as H0. cbn in H0. injection H0 as ->.
  rewrite (IH (length l) (fun k => f (S k))); [|reflexivity|].
  - cbn [olift2]. now rewrite sumn_S_first.
  - intros k Hk. apply (H (S k)). lia.
Qed.
Lemma dot_sumn n a b : length a = n -> length b = n -> dot a b = sumn n (fun d => nth d a 0 * nth d b 0).
Proof.
  intros Ha Hb. unfold dot. apply rsum_index.
  - rewrite zip_with_length; lia.
  - intros k Hk. rewrite nth_error_zip_with.
    rewrite (nth_error_nth_lt a k 0), (nth_error_nth_lt b k 0) by lia. reflexivity.
Qed.

(** Logistic function. *)
Lemma logistic_bounds x : 0 < logistic x < 1.
Proof.
  unfold logistic. pose proof (exp_pos (- x)) as H. split.
  - apply Rinv_0_lt_compat; lra.
  - rewrite <- Rinv_1. apply Rinv_lt_contravar; lra.
Qed.
Lemma logistic_incr x y : x < y -> logistic x < logistic y.
Proof.
  intro H. unfold logistic. pose proof (exp_pos (- x)). pose proof (exp_pos (- y)).
  assert (exp (- y) < exp (- x)) by (apply exp_increasing; lra).
  apply Rinv_lt_contravar; [|lra]. apply Rmult_lt_0_compat; lra.
Qed.
Lemma logistic_le_iff x y : logistic x <= logistic y <-> x <= y.
Proof.
  split; intro H.
  - destruct (Rle_lt_dec x y) as [|Hlt]; auto. apply logistic_incr in Hlt. lra.
  - destruct H as [H| ->]; [left; now apply logistic_incr|lra].
Qed.
Lemma logistic_lt_iff x y : logistic x < logistic y <-> x < y.
Proof.
  split; intro H.
  - destruct (Rle_lt_dec y x) as [Hle|]; auto. apply logistic_le_iff in Hle. lra.
  - now apply logistic_incr.
Qed.
Lemma logistic_exp x : logistic x = exp x / (1 + exp x).
Proof.
  unfold logistic. rewrite exp_Ropp. pose proof (exp_pos x). field. lra.
Qed.
Lemma logistic_compl x : 1 - logistic x = / (1 + exp x).
Proof. rewrite logistic_exp. pose proof (exp_pos x). field. lra. Qed.

(** nested entries *)
Lemma at3_at2 {A} (x : list (list (list A))) i j k r :
  nth_error x i = Some r -> at3 x i j k = at2 r j k.
Proof. intro H. unfold at3. now rewrite H. Qed.

Lemma set_mask_length {A} m (v : A) l : length m = length l -> length (set_mask m v l) = length l.
Proof. intro H. unfold set_mask. rewrite zip_with_length. lia. Qed.
Lemma nth_error_set_mask {A} m (v : A) l p b : nth_error m p = Some b ->
  nth_error (set_mask m v l) p = if b then option_map (fun _ => v) (nth_error l p) else nth_error l p.
Proof.
  intro H. unfold set_mask. rewrite nth_error_zip_with, H. destruct (nth_error l p), b; reflexivity.
Qed.

(** Weighted averages: if the ratio of two positive weightings is nondecreasing in the index, the
    average of a nondecreasing score is larger under the second. *)
Lemma chebyshev_double n (w v s : nat -> R) :
  sumn n (fun k => sumn n (fun j => (s k - s j) * (v k * w j - v j * w k))) =
  2 * (sumn n (fun k => s k * v k) * sumn n w - sumn n (fun k => s k * w k) * sumn n v).
Proof.
  rewrite (sumn_ext n _ (fun k => (s k * v k * sumn n w + s k * w k * (- sumn n v))
      + (- v k * sumn n (fun j => s j * w j) + w k * sumn n (fun j => s j * v j)))).
  - rewrite sumn_plus, 2 sumn_plus.
    rewrite sumn_scal_r, sumn_scal_r, sumn_scal_r, sumn_scal_r, sumn_opp. ring.
  - intros k _.
    rewrite (sumn_ext n _ (fun j => (s k * v k * w j + - (s k * w k) * v j)
      + (- v k * (s j * w j) + w k * (s j * v j)))) by (intros; ring).
    rewrite 3 sumn_plus, 4 sumn_scal. ring.
Qed.

Lemma chebyshev_avg n (w v s : nat -> R) :
  (forall k j, (k < n)%nat -> (j < n)%nat -> 0 <= (s k - s j) * (v k * w j - v j * w k)) ->
  0 < sumn n w -> 0 < sumn n v ->
  sumn n (fun k => s k * w k) / sumn n w <= sumn n (fun k => s k * v k) / sumn n v.
Proof.
  intros H Hw Hv.
  assert (D : 0 <= sumn n (fun k => sumn n (fun j => (s k - s j) * (v k * w j - v j * w k)))).
  { apply sumn_nonneg; intros k Hk. apply sumn_nonneg; intros j Hj. now apply H. }
  rewrite chebyshev_double in D.
  apply Rmult_le_reg_r with (sumn n w * sumn n v); [now apply Rmult_lt_0_compat|].
  field_simplify; try lra.
Qed.

Lemma chebyshev_avg_strict n (w v s : nat -> R) k0 j0 :
  (forall k j, (k < n)%nat -> (j < n)%nat -> 0 <= (s k - s j) * (v k * w j - v j * w k)) ->
  (k0 < n)%nat -> (j0 < n)%nat -> 0 < (s k0 - s j0) * (v k0 * w j0 - v j0 * w k0) ->
  0 < sumn n w -> 0 < sumn n v ->
  sumn n (fun k => s k * w k) / sumn n w < sumn n (fun k => s k * v k) / sumn n v.
Proof.
  intros H Hk0 Hj0 H0 Hw Hv.
  assert (D : 0 < sumn n (fun k => sumn n (fun j => (s k - s j) * (v k * w j - v j * w k)))).
  { apply sumn_pos_one with k0; auto.
    - intros k Hk. apply sumn_nonneg; intros j Hj. now apply H.
    - apply sumn_pos_one with j0; auto. }
  rewrite chebyshev_double in D.
  apply Rmult_lt_reg_r with (sumn n w * sumn n v); [now apply Rmult_lt_0_compat|].
  field_simplify; try lra.
Qed.
