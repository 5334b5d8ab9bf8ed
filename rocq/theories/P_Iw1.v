(** Averages over independent noise rows. *)
From Verif Require Import Base BaseFacts RBase RFacts M_Est S_Lik S_Est S_Iw.
Local Open Scope R_scope.

Definition drop (j : nat) (l : list (list R)) : list (list R) := firstn j l ++ skipn (S j) l.

Section AV.
Variables (lv : nat) (A : (list R -> R) -> R).
Hypothesis HA : averaging lv A.
Lemma av_ext f g : (forall z, length z = lv -> f z = g z) -> A f = A g.
Proof. intro H. apply Rle_antisym; apply (av_mono lv A HA); intros z Hz; rewrite (H z Hz); lra. Qed.
Lemma av_const c : A (fun _ => c) = c.
Proof. rewrite (av_ext (fun _ => c) (fun _ => c * 1)) by (intros; ring). rewrite (av_scal lv A HA), (av_one lv A HA). ring. Qed.
Lemma av_opp f : A (fun z => - f z) = - A f.
Proof. rewrite (av_ext (fun z => - f z) (fun z => -1 * f z)) by (intros; ring). rewrite (av_scal lv A HA). ring. Qed.
Lemma av_minus f g : A (fun z => f z - g z) = A f - A g.
Proof. rewrite (av_ext _ (fun z => f z + - g z)) by (intros; ring). rewrite (av_plus lv A HA), av_opp. ring. Qed.
Lemma av_sum n (f : nat -> list R -> R) : A (fun z => sumn n (fun k => f k z)) = sumn n (fun k => A (f k)).
Proof. induction n as [|n IH]; cbn [sumn]; [apply av_const|]. now rewrite (av_plus lv A HA (fun z => sumn n (fun k => f k z)) (f n)), IH. Qed.

Lemma ex_mono n F G : (forall l, rect n lv l -> F l <= G l) -> expected A n F <= expected A n G.
Proof.
  revert F G. induction n as [|n IH]; intros F G H; cbn [expected].
  - apply H. now split.
  - apply (av_mono lv A HA). intros z Hz. apply IH. intros l [L1 L2]. apply H. split; [cbn; now rewrite L1|now constructor].
Qed.
Lemma ex_ext n F G : (forall l, rect n lv l -> F l = G l) -> expected A n F = expected A n G.
Proof. intro H. apply Rle_antisym; apply ex_mono; intros l Hl; rewrite (H l Hl); lra. Qed.
Lemma ex_plus n F G : expected A n (fun l => F l + G l) = expected A n F + expected A n G.
Proof.
  revert F G. induction n as [|n IH]; intros F G; cbn [expected]; [reflexivity|].
  rewrite <- (av_plus lv A HA). apply av_ext. intros z Hz. apply (IH (fun l => F (z :: l)) (fun l => G (z :: l))).
Qed.
Lemma ex_scal n c F : expected A n (fun l => c * F l) = c * expected A n F.
Proof.
  revert F. induction n as [|n IH]; intros F; cbn [expected]; [reflexivity|].
  rewrite <- (av_scal lv A HA). apply av_ext. intros z Hz. apply (IH (fun l => F (z :: l))).
Qed.
Lemma ex_const n c : expected A n (fun _ => c) = c.
Proof. induction n as [|n IH]; cbn [expected]; [reflexivity|]. rewrite (av_ext _ (fun _ => c)) by (intros; apply IH). apply av_const. Qed.
Lemma ex_sum n m (F : nat -> list (list R) -> R) : expected A n (fun l => sumn m (fun k => F k l)) = sumn m (fun k => expected A n (F k)).
Proof.
  induction m as [|m IH]; cbn [sumn]; [apply ex_const|]. rewrite (ex_plus n (fun l => sumn m (fun k => F k l)) (F m)). now rewrite IH.
Qed.
Lemma ex_app n m F : expected A (n + m) F = expected A n (fun l1 => expected A m (fun l2 => F (l1 ++ l2))).
Proof.
  revert F. induction n as [|n IH]; intros F; cbn [expected Nat.add app]; [reflexivity|].
  apply av_ext. intros z Hz. rewrite IH. reflexivity.
Qed.
Lemma ex_one n k H : (k < n)%nat -> expected A n (fun l => H (nth k l [])) = A H.
Proof.
  revert k. induction n as [|n IH]; intros [|k] Hk; try lia; cbn [expected nth].
  - apply av_ext. intros z Hz. apply ex_const.
  - rewrite (av_ext _ (fun _ => A H)) by (intros; apply IH; lia). apply av_const.
Qed.
(** The rows [n], [B + n], [2 B + n], ... *)
Definition stride (K B n : nat) (l : list (list R)) : list (list R) := map (fun k => nth (k * B + n) l []) (seq 0 K).
Lemma ex_stride K B n F : (n < B)%nat -> expected A (K * B) (fun l => F (stride K B n l)) = expected A K F.
Proof.
  intro Hn. revert F. induction K as [|K IH]; intros F; [reflexivity|].
  cbn [Nat.mul]. rewrite ex_app. cbn [expected].
  transitivity (expected A B (fun l1 => (fun z => expected A K (fun l => F (z :: l))) (nth n l1 []))).
  - apply ex_ext. intros l1 [L1 _]. rewrite <- (IH (fun l => F (nth n l1 [] :: l))). apply ex_ext. intros l2 _. f_equal.
    unfold stride. cbn [seq map]. rewrite Nat.mul_0_l, Nat.add_0_l, app_nth1 by lia. f_equal.
    rewrite <- seq_shift, map_map. apply map_ext. intro k. rewrite app_nth2 by (rewrite L1; cbn; lia). f_equal. rewrite L1. cbn. lia.
  - apply (ex_one B n (fun z => expected A K (fun l => F (z :: l))) Hn).
Qed.
Lemma ex_drop K j G : (j <= K)%nat -> expected A (S K) (fun l => G (drop j l)) = expected A K G.
Proof.
  revert K G. induction j as [|j IH]; intros K G Hj.
  - cbn [expected drop]. unfold drop. rewrite (av_ext _ (fun _ => expected A K G)) by (intros; reflexivity). apply av_const.
  - destruct K as [|K]; [lia|]. change (expected A (S K) G) with (A (fun z => expected A K (fun l => G (z :: l)))).
    change (expected A (S (S K)) (fun l => G (drop (S j) l))) with (A (fun z => expected A (S K) (fun l => G (drop (S j) (z :: l))))).
    apply av_ext. intros z Hz. apply (IH K (fun l => G (z :: l))). lia.
Qed.
End AV.

(** ** Jensen's inequality for the logarithm *)
Lemma ln_tangent a p : 0 < a -> 0 < p -> ln a <= ln p + (a / p - 1).
Proof.
  intros Ha Hp. assert (Hq : 0 < a / p) by (apply Rdiv_lt_0_compat; auto).
  replace (ln a) with (ln p + ln (a / p)).
  - apply Rplus_le_compat_l. pose proof (exp_ineq1_le (ln (a / p))) as H. rewrite exp_ln in H by auto. lra.
  - unfold Rdiv. rewrite ln_mult, ln_Rinv by (auto using Rinv_0_lt_compat). ring.
Qed.
Lemma ln_concave n f : (0 < n)%nat -> (forall k, (k < n)%nat -> 0 < f k) -> sumn n (fun k => ln (f k)) / INR n <= ln (sumn n f / INR n).
Proof.
  intros Hn Hf. assert (H0 : 0 < INR n) by (apply lt_0_INR; auto). set (p := sumn n f / INR n).
  assert (Hp : 0 < p) by (apply Rdiv_lt_0_compat; auto; now apply sumn_pos).
  apply Rmult_le_reg_r with (INR n); auto. unfold Rdiv. rewrite Rmult_assoc, Rinv_l, Rmult_1_r by lra.
  replace (ln p * INR n) with (sumn n (fun k => ln p + (f k / p - 1))).
  - apply sumn_le. intros k Hk. apply ln_tangent; auto.
  - rewrite sumn_plus, sumn_minus, sumn_div, !sumn_const. fold p. replace (sumn n f) with (p * INR n) by (unfold p; field; lra). field. lra.
Qed.
(** The mean of [S K] numbers is the mean of the means with one number left out. *)
Lemma leave_one_out K (w : list R -> R) l : (0 < K)%nat -> length l = S K ->
  rsum (map w l) / INR (S K) = sumn (S K) (fun j => rsum (map w (drop j l)) / INR K) / INR (S K).
Proof.
  intros HK Hl. f_equal. rewrite sumn_div. assert (H0 : 0 < INR K) by (apply lt_0_INR; auto).
  rewrite (sumn_ext (S K) _ (fun j => rsum (map w l) - w (nth j l []))).
  - rewrite sumn_minus, sumn_const. rewrite <- Hl at 2. replace (sumn (length l) (fun k => w (nth k l []))) with (rsum (map w l)).
    + rewrite S_INR. field. lra.
    + clear. induction l as [|x l IH]; [reflexivity|]. cbn [map rsum length]. rewrite sumn_S_first. cbn [nth]. now rewrite IH.
  - intros j Hj. rewrite <- Hl in Hj. clear - Hj. revert j Hj. induction l as [|x l IH]; intros [|j] Hj; cbn [length] in Hj; try lia.
    + unfold drop. cbn [firstn skipn app map rsum nth]. ring.
    + specialize (IH j ltac:(lia)). change (drop (S j) (x :: l)) with (x :: drop j l). cbn [map rsum nth]. rewrite IH. ring.
Qed.
