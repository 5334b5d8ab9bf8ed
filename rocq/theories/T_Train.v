(** Training: C59, C60, C82, C83. *)
From Verif Require Import Base BaseFacts RBase RFacts M_Lik M_Est M_Stat M_Train S_Train P_Train1 P_Train2 P_Train3 P_Train4 P_Train5 P_Train6.
Local Open Scope R_scope.

Lemma repeat_single {B} (data : B) k : concat (repeat [data] k) = repeat data k.
Proof. induction k as [|k IH]; [reflexivity|]. cbn [repeat concat app]. now rewrite IH. Qed.

(** ** C59.  Training uses the batches of the epochs in turn, with rates that follow the plateau rule, and stops when the
    allowed number of reductions has been made or the epochs are over. *)
Theorem C59_joint_run {W B} (loss : B -> W -> fl) (update : B -> R -> W -> W) lr patience limit max_epochs (batches : list B) w0 :
  0 < lr -> (1 <= limit)%Z ->
  exists N w rate l,
    run_of loss update (1 / 2) (1 / 10000) patience lr limit w0 (concat (repeat batches (Z.to_nat max_epochs))) N w rate l /\
    tr_history (jml_train loss update lr patience limit max_epochs batches w0) = map l (seq 0 N).
Proof.
  intros H1 H2. destruct (fitted_run loss update (Schedule (1 / 2) patience (1 / 10000)) lr limit w0 batches max_epochs _ H1 ltac:(cbn; lra) ltac:(cbn; lra) (jml_fitted loss update _ lr limit max_epochs batches w0 H2)) as (N & w & rate & l & HR & HH & _).
  exists N, w, rate, l. split; [exact HR|exact HH].
Qed.
Print Assumptions C59_joint_run.
Theorem C59_marginal_run {W B} (loss : B -> W -> fl) (update : B -> R -> W -> W) lr patience limit max_epochs (data : B) w0 :
  0 < lr -> (1 <= limit)%Z ->
  exists N w rate l,
    run_of loss update (6 / 10) (5 / 100000) patience lr limit w0 (repeat data (Z.to_nat max_epochs)) N w rate l /\
    tr_history (mml_train loss update lr patience limit max_epochs data w0) = map l (seq 0 N).
Proof.
  intros H1 H2. destruct (fitted_run loss update (Schedule (6 / 10) patience (5 / 100000)) lr limit w0 [data] max_epochs _ H1 ltac:(cbn; lra) ltac:(cbn; lra) (mml_fitted loss update _ lr limit max_epochs data w0 H2)) as (N & w & rate & l & HR & HH & _).
  exists N, w, rate, l. split; [|exact HH]. rewrite repeat_single in HR. exact HR.
Qed.
Print Assumptions C59_marginal_run.
(** Two epochs of gradient descent on a parabola, in one and in two batches. *)
Definition parabola (a w : R) : fl := Some (Fin ((w - a) * (w - a))).
Definition descend (a rate w : R) : R := w - rate * (2 * (w - a)).
(** With a limit below one there is still one epoch (and one reduction ends it early for joint estimation). *)
Theorem C59_limit_below_one {W B} (loss : B -> W -> fl) (update : B -> R -> W -> W) lr patience limit max_epochs (batches : list B) (data : B) w0 :
  (limit <= 0)%Z ->
  jml_train loss update lr patience limit max_epochs batches w0 = jml_train loss update lr patience 1 (Z.min 1 max_epochs) batches w0 /\
  length (tr_history (mml_train loss update lr patience limit max_epochs data w0)) = Nat.min 1 (Z.to_nat max_epochs).
Proof.
  intros HL. split; [unfold jml_train; now rewrite jml_low|]. unfold mml_train, mml_loop, range. destruct (Z.to_nat max_epochs) as [|k]; [reflexivity|]. cbn [seq for_loop]. unfold mml_epoch at 1. cbv zeta. unfold reached_limit.
  replace (limit <=? _)%Z with true by (symmetry; apply Z.leb_le; lia). unfold t_result. cbn [t_saved]. destruct (flt _ _); reflexivity.
Qed.
Print Assumptions C59_limit_below_one.
Example C59_limit_below_one_nonvacuous : (0 <= 0)%Z /\ length (tr_history (mml_train parabola descend (1 / 4) 7 0 1000 0 8)) = 1%nat.
Proof. split; [lia|]. rewrite (proj2 (C59_limit_below_one parabola descend (1 / 4) 7 0 1000 [] 0 8 ltac:(lia))). reflexivity. Qed.

(** Never more batches than the epochs have; an early stop takes at least [limit * (patience + 1)] of them. *)
Theorem C59_number_of_iterations {W B} (loss : B -> W -> fl) (update : B -> R -> W -> W) lr patience limit max_epochs (batches : list B) (data : B) w0 :
  0 < lr -> (1 <= limit)%Z ->
  (let n := length (tr_history (jml_train loss update lr patience limit max_epochs batches w0)) in
   n <= Z.to_nat max_epochs * length batches /\
   (n < Z.to_nat max_epochs * length batches -> Z.to_nat limit * (patience + 1) <= n))%nat /\
  (let n := length (tr_history (mml_train loss update lr patience limit max_epochs data w0)) in
   n <= Z.to_nat max_epochs /\ (n < Z.to_nat max_epochs -> Z.to_nat limit * (patience + 1) <= n))%nat.
Proof.
  intros HL Hlim. assert (E : forall bs : list B, length (flat (fun _ => bs) (range max_epochs)) = (Z.to_nat max_epochs * length bs)%nat) by (intros bs; rewrite <- (map_length snd), snd_flat, concat_range; apply length_concat_repeat).
  split; cbv zeta.
  - pose proof (jml_fitted loss update (Schedule (1 / 2) patience (1 / 10000)) lr limit max_epochs batches w0 Hlim) as HF. rewrite <- (E batches). split; [eapply fitted_at_most; [exact Hlim|exact HF]|]. eapply (fitted_at_least _ _ (Schedule (1 / 2) patience (1 / 10000))); [exact HL|cbn; lra|exact Hlim|exact HF].
  - pose proof (mml_fitted loss update (Schedule (6 / 10) patience (5 / 100000)) lr limit max_epochs data w0 Hlim) as HF. specialize (E [data]). rewrite Nat.mul_1_r in E. rewrite <- E. split; [eapply fitted_at_most; [exact Hlim|exact HF]|]. eapply (fitted_at_least _ _ (Schedule (6 / 10) patience (5 / 100000))); [exact HL|cbn; lra|exact Hlim|exact HF].
Qed.
Print Assumptions C59_number_of_iterations.
Example C59_run_nonvacuous :
  tr_history (mml_train parabola descend (1 / 4) 7 2 2 0 8) = [Some (Fin 64); Some (Fin 16)] /\
  tr_history (jml_train parabola descend (1 / 4) 80 3 1 [0; 1] 8) = [Some (Fin 64); Some (Fin 9)].
Proof.
  destruct (C59_number_of_iterations parabola descend (1 / 4) 7 2 2 [0; 1] 0 8) as [_ [N1 N2]]; [lra|lia|].
  destruct (C59_number_of_iterations parabola descend (1 / 4) 80 3 1 [0; 1] 0 8) as [[M1 M2] _]; [lra|lia|]. split.
  - destruct (C59_marginal_run parabola descend (1 / 4) 7 2 2 0 8) as (N & w & rate & l & (H1 & H2 & H3 & H4 & _) & E); [lra|lia|]. rewrite E in *. rewrite map_length, seq_length in *. change (Z.to_nat 2) with 2%nat in *. assert (N = 2%nat) by (cbn in N2; lia). subst N. cbn [seq map].
    destruct (H3 0%nat 0 eq_refl) as [A1 A2]. destruct (H3 1%nat 0 eq_refl) as [B1 _]. destruct H4 as [H4 _]. rewrite B1, A1, A2, H2, H4. unfold parabola, descend. repeat f_equal; lra.
  - destruct (C59_joint_run parabola descend (1 / 4) 80 3 1 [0; 1] 8) as (N & w & rate & l & (H1 & H2 & H3 & H4 & _) & E); [lra|lia|]. rewrite E in *. rewrite map_length, seq_length in *. change (Z.to_nat 1) with 1%nat in *. change (Z.to_nat 3) with 3%nat in *. assert (N = 2%nat) by (cbn in M1, M2; lia). subst N. cbn [seq map].
    destruct (H3 0%nat 0 eq_refl) as [A1 A2]. destruct (H3 1%nat 1 eq_refl) as [B1 _]. destruct H4 as [H4 _]. rewrite B1, A1, A2, H2, H4. unfold parabola, descend. repeat f_equal; lra.
Qed.
(** Once losses no longer improve by the relative threshold, training ends after [limit * (patience + 1)] more of them. *)
Theorem C59_plateau_stops {W B} (loss : B -> W -> fl) (update : B -> R -> W -> W) lr patience limit max_epochs (batches : list B) (data : B) w0 k :
  (1 <= limit)%Z -> (1 <= k)%nat ->
  (let h := tr_history (jml_train loss update lr patience limit max_epochs batches w0) in
   / 100000000 < lr * (1 / 2) ^ (Z.to_nat limit - 1) * (1 - 1 / 2) ->
   (exists x, nth_error h 0 = Some x /\ lower x (Some PInf)) ->
   (forall n m x y, (k <= n)%nat -> (m < n)%nat -> nth_error h n = Some x -> nth_error h m = Some y -> ~ clearly_lower (1 / 10000) x y) ->
   (length h <= k + Z.to_nat limit * (patience + 1))%nat) /\
  (let h := tr_history (mml_train loss update lr patience limit max_epochs data w0) in
   / 100000000 < lr * (6 / 10) ^ (Z.to_nat limit - 1) * (1 - 6 / 10) ->
   (exists x, nth_error h 0 = Some x /\ lower x (Some PInf)) ->
   (forall n m x y, (k <= n)%nat -> (m < n)%nat -> nth_error h n = Some x -> nth_error h m = Some y -> ~ clearly_lower (5 / 100000) x y) ->
   (length h <= k + Z.to_nat limit * (patience + 1))%nat).
Proof.
  intros Hlim Hk. assert (HP : forall f, 0 < f < 1 -> / 100000000 < lr * f ^ (Z.to_nat limit - 1) * (1 - f) -> 0 < lr).
  { intros f Hf H. pose proof (pow_lt f (Z.to_nat limit - 1) (proj1 Hf)) as HQ. assert (0 < / 100000000) by lra. destruct (Rlt_dec 0 lr) as [|Hn]; [assumption|exfalso]. assert (0 < f ^ (Z.to_nat limit - 1) * (1 - f)) by (apply Rmult_lt_0_compat; lra). nra. }
  split; cbv zeta; intros HR (x & H0 & Hx) HN.
  - eapply (fitted_plateau _ _ (Schedule (1 / 2) patience (1 / 10000)) lr limit); [eapply (HP (1 / 2)); [lra|exact HR]|cbn; lra|cbn; lra|exact Hlim|exact (jml_fitted loss update _ lr limit max_epochs batches w0 Hlim)|exact HR|exact Hk|exact H0|exact Hx|exact HN].
  - eapply (fitted_plateau _ _ (Schedule (6 / 10) patience (5 / 100000)) lr limit); [eapply (HP (6 / 10)); [lra|exact HR]|cbn; lra|cbn; lra|exact Hlim|exact (mml_fitted loss update _ lr limit max_epochs data w0 Hlim)|exact HR|exact Hk|exact H0|exact Hx|exact HN].
Qed.
Print Assumptions C59_plateau_stops.
(** Every recorded loss was computed. *)
Lemma joint_losses {W B} (loss : B -> W -> fl) (update : B -> R -> W -> W) lr patience limit max_epochs (batches : list B) w0 x : 0 < lr -> (1 <= limit)%Z ->
  In x (tr_history (jml_train loss update lr patience limit max_epochs batches w0)) -> exists b w, In b batches /\ x = loss b w.
Proof.
  intros HL Hlim H. destruct (C59_joint_run loss update lr patience limit max_epochs batches w0 HL Hlim) as (N & w & rate & l & (H1 & _ & H3 & _) & E). rewrite E in H. apply in_map_iff in H. destruct H as (n & <- & Hn). apply in_seq in Hn.
  destruct (nth_error (concat (repeat batches (Z.to_nat max_epochs))) n) as [b|] eqn:EB; [|apply nth_error_None in EB; lia]. exists b, (w n). split; [|apply (H3 n b EB)].
  apply nth_error_In, in_concat in EB. destruct EB as (bs & Hbs & Hb). apply repeat_spec in Hbs. now subst bs.
Qed.
Lemma marginal_losses {W B} (loss : B -> W -> fl) (update : B -> R -> W -> W) lr patience limit max_epochs (data : B) w0 x : 0 < lr -> (1 <= limit)%Z ->
  In x (tr_history (mml_train loss update lr patience limit max_epochs data w0)) -> exists w, x = loss data w.
Proof.
  intros HL Hlim H. destruct (C59_marginal_run loss update lr patience limit max_epochs data w0 HL Hlim) as (N & w & rate & l & (H1 & _ & H3 & _) & E). rewrite E in H. apply in_map_iff in H. destruct H as (n & <- & Hn). apply in_seq in Hn.
  destruct (nth_error (repeat data (Z.to_nat max_epochs)) n) as [b|] eqn:EB; [|apply nth_error_None in EB; lia]. exists (w n). destruct (H3 n b EB) as [-> _]. apply nth_error_In, repeat_spec in EB. now subst.
Qed.
Definition level (_ : unit) (w : R) : fl := Some (Fin 1).
Definition drift (_ : unit) (rate w : R) : R := w + rate.
(** A flat loss: 1 + 3 * 81 batches at most. *)
Example C59_plateau_stops_nonvacuous max_epochs : (length (tr_history (jml_train level drift (1 / 10) 80 3 max_epochs [tt] 0%R)) <= 244)%nat.
Proof.
  destruct (Z_le_gt_dec max_epochs 0) as [H0|H0].
  - destruct (C59_number_of_iterations level drift (1 / 10) 80 3 max_epochs [tt] tt 0) as [[H _] _]; [lra|lia|]. cbv zeta in H. replace (Z.to_nat max_epochs) with 0%nat in H by lia. cbn [Nat.mul] in H. lia.
  - destruct (C59_plateau_stops level drift (1 / 10) 80 3 max_epochs [tt] tt 0 1) as [H _]; [lia|lia|]. apply H.
    + change (Z.to_nat 3 - 1)%nat with 2%nat. cbn [pow]. lra.
    + destruct (tr_history _) as [|x h] eqn:E.
      * exfalso. destruct (C59_number_of_iterations level drift (1 / 10) 80 3 max_epochs [tt] tt 0) as [[_ K] _]; [lra|lia|]. rewrite E in K. cbn [length] in K. change (Z.to_nat 3) with 3%nat in K. lia.
      * exists x. split; [reflexivity|]. destruct (joint_losses level drift (1 / 10) 80 3 max_epochs [tt] 0 x) as (b & w & _ & ->); [lra|lia|rewrite E; now left|]. exact I.
    + intros n m x y _ _ Hx Hy. apply nth_error_In in Hx, Hy. apply joint_losses in Hx, Hy; try lra; try lia. destruct Hx as (? & ? & _ & ->), Hy as (? & ? & _ & ->). cbn. lra.
Qed.
(** Losses bounded away from zero: training ends, however many epochs are allowed. *)
Theorem C59_bounded_stops {W B} (loss : B -> W -> fl) (update : B -> R -> W -> W) lr patience limit max_epochs (batches : list B) (data : B) w0 K low x0 :
  (1 <= limit)%Z -> 0 < low ->
  (let h := tr_history (jml_train loss update lr patience limit max_epochs batches w0) in
   / 100000000 < lr * (1 / 2) ^ (Z.to_nat limit - 1) * (1 - 1 / 2) ->
   nth_error h 0 = Some (Some (Fin x0)) -> (forall x, In x h -> exists r, x = Some (Fin r) /\ low <= r) ->
   x0 * (1 - 1 / 10000) ^ K < low -> (length h <= (Z.to_nat limit + K) * (patience + 1))%nat) /\
  (let h := tr_history (mml_train loss update lr patience limit max_epochs data w0) in
   / 100000000 < lr * (6 / 10) ^ (Z.to_nat limit - 1) * (1 - 6 / 10) ->
   nth_error h 0 = Some (Some (Fin x0)) -> (forall x, In x h -> exists r, x = Some (Fin r) /\ low <= r) ->
   x0 * (1 - 5 / 100000) ^ K < low -> (length h <= (Z.to_nat limit + K) * (patience + 1))%nat).
Proof.
  intros Hlim Hlow. assert (HP : forall f, 0 < f < 1 -> / 100000000 < lr * f ^ (Z.to_nat limit - 1) * (1 - f) -> 0 < lr).
  { intros f Hf H. pose proof (pow_lt f (Z.to_nat limit - 1) (proj1 Hf)) as HQ. assert (0 < / 100000000) by lra. destruct (Rlt_dec 0 lr) as [|Hn]; [assumption|exfalso]. assert (0 < f ^ (Z.to_nat limit - 1) * (1 - f)) by (apply Rmult_lt_0_compat; lra). nra. }
  split; cbv zeta; intros HR H0 HB HK.
  - eapply (fitted_bounded _ _ (Schedule (1 / 2) patience (1 / 10000)) lr limit); [eapply (HP (1 / 2)); [lra|exact HR]|cbn; lra|cbn; lra|exact Hlim|exact (jml_fitted loss update _ lr limit max_epochs batches w0 Hlim)|exact HR|exact Hlow|exact H0|exact HB|exact HK].
  - eapply (fitted_bounded _ _ (Schedule (6 / 10) patience (5 / 100000)) lr limit); [eapply (HP (6 / 10)); [lra|exact HR]|cbn; lra|cbn; lra|exact Hlim|exact (mml_fitted loss update _ lr limit max_epochs data w0 Hlim)|exact HR|exact Hlow|exact H0|exact HB|exact HK].
Qed.
Print Assumptions C59_bounded_stops.
(** One plus a square: starting at 1.0001 there is room for two improvements only. *)
Definition raised (a w : R) : fl := Some (Fin (1 + (w - a) * (w - a))).
Example C59_bounded_stops_nonvacuous max_epochs : (1 <= max_epochs)%Z ->
  (length (tr_history (mml_train raised descend (1 / 10) 7 2 max_epochs 0%R (1 / 100)%R)) <= 40)%nat.
Proof.
  intros HM. destruct (C59_bounded_stops raised descend (1 / 10) 7 2 max_epochs [] 0 (1 / 100) 3 1 (10001 / 10000)) as [_ H]; [lia|lra|]. cbv zeta in H. apply H.
  - change (Z.to_nat 2 - 1)%nat with 1%nat. lra.
  - destruct (C59_marginal_run raised descend (1 / 10) 7 2 max_epochs 0 (1 / 100)) as (N & w & rate & l & (H1 & H2 & H3 & _) & E); [lra|lia|].
    destruct (C59_number_of_iterations raised descend (1 / 10) 7 2 max_epochs [] 0 (1 / 100)) as [_ [_ K]]; [lra|lia|]. rewrite E in *. rewrite map_length, seq_length in K. change (Z.to_nat 2) with 2%nat in K. destruct N as [|N]; [exfalso; lia|]. cbn [seq map nth_error].
    destruct (H3 0%nat 0) as [-> _]; [destruct (Z.to_nat max_epochs) eqn:EE; [lia|reflexivity]|]. rewrite H2. unfold raised. replace (1 + (1 / 100 - 0) * (1 / 100 - 0)) with (10001 / 10000) by lra. reflexivity.
  - intros x Hx. apply marginal_losses in Hx; [|lra|lia]. destruct Hx as (w & ->). eexists. split; [reflexivity|]. pose proof (Rle_0_sqr (w - 0)) as Hs. unfold Rsqr in Hs. lra.
  - lra.
Qed.

(** *** Where the documentation is not met *)
(** "patience: the number of epochs to wait before reducing the learning rate": batches are counted.  With a flat loss and
    enough batches the rate is reduced, and training over, within the first epoch. *)
Theorem C59_patience_in_epochs_refuted {W B} (loss : B -> W -> fl) (update : B -> R -> W -> W) patience max_epochs (batches : list B) w0 x :
  (forall b w, loss b w = Some (Fin x)) -> 0 <= x -> (patience + 2 < length batches)%nat ->
  (length (tr_history (jml_train loss update (1 / 10) patience 1 max_epochs batches w0)) <= patience + 2)%nat.
Proof.
  intros HL Hx HB. destruct (tr_history (jml_train loss update (1 / 10) patience 1 max_epochs batches w0)) as [|y h] eqn:E; [cbn; lia|]. destruct batches as [|data batches]; [cbn in HB; lia|].
  destruct (C59_plateau_stops loss update (1 / 10) patience 1 max_epochs (data :: batches) data w0 1) as [H _]; [lia|lia|]. cbv zeta in H. rewrite E in H. change (Z.to_nat 1) with 1%nat in H. 
  assert (HA : forall z, In z (y :: h) -> z = Some (Fin x)) by (intros z Hz; rewrite <- E in Hz; apply joint_losses in Hz; [|lra|lia]; destruct Hz as (b & w & _ & ->); apply HL).
  replace (patience + 2)%nat with (1 + 1 * (patience + 1))%nat by lia. apply H.
  - cbn [Nat.sub pow]. lra.
  - exists y. split; [reflexivity|]. rewrite (HA y) by (now left). exact I.
  - intros n m z z' _ _ Hz Hz'. apply nth_error_In in Hz, Hz'. rewrite (HA z Hz), (HA z' Hz'). cbn. nra.
Qed.
Print Assumptions C59_patience_in_epochs_refuted.
Example C59_patience_in_epochs_nonvacuous : (80 + 2 < length (repeat tt 100))%nat /\ (length (tr_history (jml_train level drift (1 / 10) 80 1 10000 (repeat tt 100) 0%R)) <= 82)%nat.
Proof. split; [rewrite repeat_length; lia|]. apply (C59_patience_in_epochs_refuted level drift 80 10000 (repeat tt 100) 0 1); [reflexivity|lra|rewrite repeat_length; lia]. Qed.
(** A negative loss that stays the same counts as an improvement every time: all epochs are used. *)
Theorem C59_negative_loss_refuted {W B} (loss : B -> W -> fl) (update : B -> R -> W -> W) lr patience limit max_epochs (batches : list B) (data : B) w0 x :
  (forall b w, loss b w = Some (Fin x)) -> x < 0 -> 0 < lr -> (1 <= limit)%Z ->
  length (tr_history (jml_train loss update lr patience limit max_epochs batches w0)) = (Z.to_nat max_epochs * length batches)%nat /\
  length (tr_history (mml_train loss update lr patience limit max_epochs data w0)) = Z.to_nat max_epochs.
Proof.
  intros HLx Hx HL Hlim. assert (E : forall bs : list B, length (flat (fun _ => bs) (range max_epochs)) = (Z.to_nat max_epochs * length bs)%nat) by (intros bs; rewrite <- (map_length snd), snd_flat, concat_range; apply length_concat_repeat).
  split.
  - rewrite <- E. eapply (fitted_negative loss update (Schedule (1 / 2) patience (1 / 10000))); [cbn; lra|exact Hlim|exact (jml_fitted loss update _ lr limit max_epochs batches w0 Hlim)|exact Hx|exact HLx].
  - specialize (E [data]). rewrite Nat.mul_1_r in E. rewrite <- E. eapply (fitted_negative loss update (Schedule (6 / 10) patience (5 / 100000))); [cbn; lra|exact Hlim|exact (mml_fitted loss update _ lr limit max_epochs data w0 Hlim)|exact Hx|exact HLx].
Qed.
Print Assumptions C59_negative_loss_refuted.
Example C59_negative_loss_nonvacuous : length (tr_history (mml_train (fun (_ : unit) (_ : R) => Some (Fin (-1))) drift (1 / 10) 7 2 1000 tt 0%R)) = Z.to_nat 1000.
Proof. apply (C59_negative_loss_refuted (fun (_ : unit) (_ : R) => Some (Fin (-1))) drift (1 / 10) 7 2 1000 [] tt 0 (-1)); [reflexivity|lra|lra|lia]. Qed.
(** Reductions by 1e-8 or less are not made, and not counted: too small a rate for the allowed number of reductions and
    training never stops early. *)
Theorem C59_small_rate_refuted {W B} (loss : B -> W -> fl) (update : B -> R -> W -> W) lr patience limit max_epochs (batches : list B) (data : B) w0 :
  0 < lr -> (1 <= limit)%Z ->
  (lr * (1 / 2) ^ (Z.to_nat limit - 1) * (1 - 1 / 2) <= / 100000000 ->
   length (tr_history (jml_train loss update lr patience limit max_epochs batches w0)) = (Z.to_nat max_epochs * length batches)%nat) /\
  (lr * (6 / 10) ^ (Z.to_nat limit - 1) * (1 - 6 / 10) <= / 100000000 ->
   length (tr_history (mml_train loss update lr patience limit max_epochs data w0)) = Z.to_nat max_epochs).
Proof.
  intros HL Hlim. assert (E : forall bs : list B, length (flat (fun _ => bs) (range max_epochs)) = (Z.to_nat max_epochs * length bs)%nat) by (intros bs; rewrite <- (map_length snd), snd_flat, concat_range; apply length_concat_repeat).
  split; intros HR.
  - rewrite <- E. eapply (fitted_never loss update (Schedule (1 / 2) patience (1 / 10000))); [exact HL|cbn; lra|exact Hlim|exact (jml_fitted loss update _ lr limit max_epochs batches w0 Hlim)|exact HR].
  - specialize (E [data]). rewrite Nat.mul_1_r in E. rewrite <- E. eapply (fitted_never loss update (Schedule (6 / 10) patience (5 / 100000))); [exact HL|cbn; lra|exact Hlim|exact (mml_fitted loss update _ lr limit max_epochs data w0 Hlim)|exact HR].
Qed.
Print Assumptions C59_small_rate_refuted.
Example C59_small_rate_nonvacuous : length (tr_history (jml_train level drift (1 / 100000000) 80 3 10000 [tt] 0%R)) = (Z.to_nat 10000 * 1)%nat.
Proof. apply (C59_small_rate_refuted level drift (1 / 100000000) 80 3 10000 [tt] tt 0); [lra|lia|]. change (Z.to_nat 3 - 1)%nat with 2%nat. cbn [pow]. lra. Qed.

(** ** C60.  What is left in the model. *)
Theorem C60_joint_final {W B} (loss : B -> W -> fl) (update : B -> R -> W -> W) lr patience limit max_epochs (batches : list B) w0 :
  0 < lr -> (1 <= limit)%Z ->
  let r := jml_train loss update lr patience limit max_epochs batches w0 in
  exists N w rate l,
    run_of loss update (1 / 2) (1 / 10000) patience lr limit w0 (concat (repeat batches (Z.to_nat max_epochs))) N w rate l /\
    tr_history r = map l (seq 0 N) /\ kept w rate l N (length batches) (tr_w r) (tr_lr r) (tr_best_epoch r).
Proof.
  intros H1 H2. exact (fitted_run loss update (Schedule (1 / 2) patience (1 / 10000)) lr limit w0 batches max_epochs _ H1 ltac:(cbn; lra) ltac:(cbn; lra) (jml_fitted loss update _ lr limit max_epochs batches w0 H2)).
Qed.
Print Assumptions C60_joint_final.
(** Marginal estimation: the loss of the parameters kept is the one recorded right after the lowest (unless that was the
    last epoch), so it is not below the lowest. *)
Theorem C60_marginal_final {W B} (loss : B -> W -> fl) (update : B -> R -> W -> W) lr patience limit max_epochs (data : B) w0 :
  0 < lr -> (1 <= limit)%Z ->
  let r := mml_train loss update lr patience limit max_epochs data w0 in
  exists N w rate l,
    run_of loss update (6 / 10) (5 / 100000) patience lr limit w0 (repeat data (Z.to_nat max_epochs)) N w rate l /\
    tr_history r = map l (seq 0 N) /\ kept w rate l N 1 (tr_w r) (tr_lr r) (tr_best_epoch r) /\
    (forall i, first_lowest l N i -> (S i < N)%nat -> nth_error (tr_history r) (S i) = Some (loss data (tr_w r)) /\ ~ lower (loss data (tr_w r)) (l i)).
Proof.
  intros H1 H2 r. destruct (fitted_run loss update (Schedule (6 / 10) patience (5 / 100000)) lr limit w0 [data] max_epochs _ H1 ltac:(cbn; lra) ltac:(cbn; lra) (mml_fitted loss update _ lr limit max_epochs data w0 H2)) as (N & w & rate & l & HR & HH & HK).
  rewrite repeat_single in HR. exists N, w, rate, l. split; [exact HR|]. split; [exact HH|]. split; [exact HK|].
  intros i Hi HN. destruct HR as (R1 & _ & R3 & _). rewrite repeat_length in R1.
  assert (HD : nth_error (repeat data (Z.to_nat max_epochs)) (S i) = Some data) by (destruct (nth_error (repeat data (Z.to_nat max_epochs)) (S i)) as [b|] eqn:E; [apply nth_error_In, repeat_spec in E; congruence|apply nth_error_None in E; rewrite repeat_length in E; lia]).
  assert (HW : tr_w r = w (S i)).
  { destruct HK as [(j & Hj & HWj & _)|(HX & _)]; [|exfalso; apply (HX i); [apply Hi|apply Hi]]. assert (j = i); [|subst j; exact HWj]. destruct Hi as (A1 & A2 & A3 & A4), Hj as (B1 & B2 & B3 & B4).
    destruct (Nat.lt_trichotomy i j) as [H|[H|H]]; [exfalso|now symmetry|exfalso].
    - destruct (B4 i H) as [E|E]; [rewrite E in A2; exact A2|exact (A3 j B1 E)].
    - destruct (A4 j H) as [E|E]; [rewrite E in B2; exact B2|exact (B3 i A1 E)]. }
  destruct (R3 (S i) data HD) as [E _]. rewrite HW, <- E. split; [|apply Hi; exact HN]. unfold r. change (tr_history (mml_train loss update lr patience limit max_epochs data w0)) with (tr_history (t_result (mml_loop loss update (Schedule (6 / 10) patience (5 / 100000)) limit max_epochs data (t_start lr w0)))). rewrite HH. now apply history_nth.
Qed.
Print Assumptions C60_marginal_final.
(** "The parameters with the lowest loss" are not kept: the state is stored after the update.  One epoch is enough to see
    it: the only loss recorded is that of the starting values, but the updated ones are kept, for better or worse. *)
Theorem C60_best_parameters_refuted {W B} (loss : B -> W -> fl) (update : B -> R -> W -> W) lr patience limit (data : B) w0 :
  lower (loss data w0) (Some PInf) ->
  let r := mml_train loss update lr patience limit 1 data w0 in
  let r' := jml_train loss update lr patience limit 1 [data] w0 in
  tr_history r = [loss data w0] /\ tr_w r = update data lr w0 /\ tr_history r' = [loss data w0] /\ tr_w r' = update data lr w0.
Proof.
  intros H. apply flt_lower in H. unfold mml_train, jml_train, mml_loop, jml_loop, range. change (Z.to_nat 1) with 1%nat. cbn [seq for_loop]. unfold mml_epoch, jml_batch. cbv zeta. cbn [t_start t_w t_plateau plateau_new pl_lr t_best]. rewrite H.
  destruct (reached_limit _ _); (destruct (andb _ _); [|]); cbn; repeat (destruct (reached_limit _ _)); cbn; auto.
Qed.
Print Assumptions C60_best_parameters_refuted.
(** A step too long: the loss of the parameters kept is 9, the recorded one 1. *)
Example C60_best_parameters_witness : let r := mml_train parabola descend 2 7 2 1 0 1 in
  tr_history r = [Some (Fin 1)] /\ parabola 0 (tr_w r) = Some (Fin 9).
Proof.
  destruct (C60_best_parameters_refuted parabola descend 2 7 2 0 1 I) as (H1 & H2 & _). cbv zeta. rewrite H1, H2. unfold parabola, descend. split; repeat f_equal; lra.
Qed.
(** Joint estimation in batches compares losses of different respondents: here every step improves the fit of the second
    batch and leaves that of the first, but the state after the very first step is kept. *)
Definition two_batches (b : bool) (w : R) : fl := if b then Some (Fin 0) else Some (Fin (1 + (w - 100) * (w - 100))).
Definition one_up (_ : bool) (_ w : R) : R := w + 1.
Theorem C60_batches_refuted : let r := jml_train two_batches one_up (1 / 10) 80 3 3 [true; false] 0 in
  tr_w r = 1 /\ nth_error (tr_history r) 5 = Some (two_batches false 5) /\ lower (two_batches false 5) (two_batches false (tr_w r)) /\
  two_batches true 5 = two_batches true (tr_w r).
Proof.
  destruct (C60_joint_final two_batches one_up (1 / 10) 80 3 3 [true; false] 0) as (N & w & rate & l & (R1 & R2 & R3 & _) & HH & HK); [lra|lia|].
  destruct (C59_number_of_iterations two_batches one_up (1 / 10) 80 3 3 [true; false] true 0) as [[M1 M2] _]; [lra|lia|]. rewrite HH, map_length, seq_length in M1, M2. change (Z.to_nat 3) with 3%nat in *. cbn [length] in M1, M2. assert (N = 6%nat) by lia. subst N.
  destruct (R3 0%nat true eq_refl) as [L0 W1]. destruct (R3 1%nat false eq_refl) as [L1 W2]. destruct (R3 2%nat true eq_refl) as [L2 W3]. destruct (R3 3%nat false eq_refl) as [L3 W4]. destruct (R3 4%nat true eq_refl) as [L4 W5]. destruct (R3 5%nat false eq_refl) as [L5 _].
  unfold one_up in W1, W2, W3, W4, W5. assert (EW : w 5%nat = 5) by lra.
  assert (HP : forall i, (i < 6)%nat -> ~ lower (l i) (Some (Fin 0))).
  { intros i Hi. assert (Hq : forall v, 0 <= (v - 100) * (v - 100)) by (intros v; pose proof (Rle_0_sqr (v - 100)) as Hs; exact Hs). destruct i as [|[|[|[|[|[|i]]]]]]; [rewrite L0|rewrite L1|rewrite L2|rewrite L3|rewrite L4|rewrite L5|lia]; cbn; try lra; match goal with |- ~ 1 + (?v - 100) * _ < 0 => specialize (Hq v); lra end. }
  assert (ET : tr_w (jml_train two_batches one_up (1 / 10) 80 3 3 [true; false] 0) = 1).
  { destruct HK as [(i & (F1 & F2 & F3 & F4) & -> & _)|(F1 & _)]; [|exfalso; apply (F1 0%nat); [lia|rewrite L0; exact I]]. destruct i as [|i]; [lra|]. exfalso. destruct (F4 0%nat) as [E|E]; [lia|rewrite L0 in E; discriminate|]. rewrite L0 in E. exact (HP (S i) F1 E). }
  cbv zeta. split; [exact ET|]. split; [rewrite HH; cbn [seq map nth_error]; rewrite L5, EW; reflexivity|]. rewrite ET. split; [cbn; lra|reflexivity].
Qed.
Print Assumptions C60_batches_refuted.

(** ** C82.  Autoencoders: batches too small for batch normalisation are skipped; after every interval the mean of its
    losses decides about the learning rate and about what is kept; training ends with a NaN loss, the allowed number of
    reductions, or the epochs. *)
Theorem C82_autoencoder_run {W B} (loss : B -> W -> fl) (update : B -> R -> W -> W) lr limit max_epochs interval norm (small : B -> bool) (loader : nat -> list B) w0 :
  0 < lr -> (1 <= limit)%Z -> (1 <= interval)%nat -> (forall b w, loss b w <> Some NInf) -> (forall e, loader e <> []) ->
  exists r N w rate l m,
    ae_train loss update lr limit max_epochs interval norm small loader w0 = Ok r /\
    interval_run_of loss update (6 / 10) (1 / 10000) 1 lr limit interval w0
      (filter (fun b => negb (small b && norm)) (concat (map loader (seq 0 (Z.to_nat max_epochs))))) N w rate l m /\
    tr_history r = map m (seq 0 (evaluated interval N)) /\
    ((exists k, first_lowest m (evaluated interval N) k /\ tr_w r = w (evaluation_time interval k) /\ tr_lr r = rate (S k) /\ tr_best_epoch r = evaluation_time interval k) \/
     ((forall k, (k < evaluated interval N)%nat -> ~ lower (m k) (Some PInf)) /\ tr_w r = w N /\ tr_best_epoch r = 0%nat)).
Proof.
  intros HL Hlim HI HN HB. set (c := Schedule (6 / 10) 1 (1 / 10000)). set (bs := filter (fun b => negb (small b && norm)) (concat (map loader (seq 0 (Z.to_nat max_epochs))))).
  destruct (ae_steps loss update c lr w0 interval bs HI limit Hlim) as (N & H1 & H2 & H3 & H4 & _). set (a := fst (for_loop (ae_step loss update c interval limit) bs (a_start lr w0, false))) in *.
  exists (a_result a), N, (aw loss update c lr w0 interval bs), (ar loss update c lr w0 interval bs), (al loss update c lr w0 interval bs), (mu loss update c lr w0 interval bs).
  split; [|split].
  - unfold ae_train. fold c. rewrite (ae_flat loss update c limit interval HI norm small HN max_epochs loader (a_start lr w0) HB); [reflexivity|]. unfold reached_limit. cbn. apply Z.leb_gt. lia.
  - apply (interval_run loss update c lr limit interval w0 bs N HL); [cbn; lra|cbn; lra|exact HI|exact H1|exact H3|exact H4].
  - destruct (a_result_spec loss update c lr w0 interval bs N a H2) as [E1 E2]. split; [exact E1|]. destruct E2 as [(i & F1 & F2 & F3 & F4)|(F1 & F2 & F3)]; [left; exists i; auto|right; auto].
Qed.
Print Assumptions C82_autoencoder_run.
Lemma parabola_finite a w : parabola a w <> Some NInf.
Proof. discriminate. Qed.
(** One epoch of two batches, evaluated together. *)
Example C82_autoencoder_run_nonvacuous : exists r, ae_train parabola descend (1 / 4) 3 1 2 true (fun _ => false) (fun _ => [0; 1]) 8 = Ok r /\
  tr_history r = [Some (Fin (73 / 2))] /\ tr_w r = 5 / 2 /\ tr_best_epoch r = 2%nat.
Proof.
  destruct (C82_autoencoder_run parabola descend (1 / 4) 3 1 2 true (fun _ => false) (fun _ => [0; 1]) 8) as (r & N & w & rate & l & m & E & (R1 & R2 & R3 & R4 & R5 & R6 & R7) & HH & HK); [lra|lia|lia|exact parabola_finite|discriminate|].
  change (length _) with 2%nat in R1, R7. exists r. split; [exact E|]. destruct (R3 0%nat 0 eq_refl) as [L0 W1]. destruct (R3 1%nat 1 eq_refl) as [L1 W2]. change (evaluated 2 0) with 0%nat in *. change (evaluated 2 1) with 0%nat in *. destruct R5 as [R5 _]. rewrite R5 in W1, W2.
  assert (N = 2%nat). { destruct N as [|[|[|N]]]; [exfalso|exfalso|reflexivity|lia]; (destruct R7 as [H|H]; [lia|first [rewrite L0 in H|rewrite L1 in H]; discriminate|change (drops rate _) with 0%nat in H; cbn in H; lia]). } subst N. change (evaluated 2 2) with 1%nat in *. cbn [seq map] in HH.
  assert (V0 : l 0%nat = Some (Fin 64)) by (rewrite L0, R2; unfold parabola; repeat f_equal; lra). assert (EW : w 1%nat = 4) by (rewrite W1, R2; unfold descend; lra). assert (V1 : l 1%nat = Some (Fin 9)) by (rewrite L1, EW; unfold parabola; repeat f_equal; lra).
  assert (EM : m 0%nat = Some (Fin (73 / 2))). { destruct (R4 0%nat) as [H _]. rewrite (H [64; 9]); [|cbn; now rewrite V0, V1]. cbn. repeat f_equal. lra. }
  split; [now rewrite HH, EM|]. destruct HK as [(k & (F1 & _) & -> & _ & ->)|(F & _)].
  - assert (k = 0%nat) by lia. subst k. change (evaluation_time 2 0) with 2%nat. split; [|reflexivity]. rewrite W2, EW. unfold descend. lra.
  - exfalso. apply (F 0%nat); [lia|]. rewrite EM. exact I.
Qed.
(** Stopping for the learning rate takes at least two evaluations for every reduction allowed. *)
Theorem C82_stops_no_earlier {W B} (loss : B -> W -> fl) (update : B -> R -> W -> W) lr limit interval w0 (bs : list B) N w rate l m :
  (1 <= limit)%Z -> interval_run_of loss update (6 / 10) (1 / 10000) 1 lr limit interval w0 bs N w rate l m ->
  (N < length bs)%nat -> l N <> None -> (Z.to_nat limit * 2 <= evaluated interval N)%nat.
Proof.
  intros Hlim (_ & _ & _ & _ & R5 & _ & R7) HN HL. destruct (R7 HN) as [H|H]; [congruence|]. apply drops_rule with (n := evaluated interval N) in R5. replace (Z.to_nat limit) with (drops rate (evaluated interval N)) by lia. exact R5.
Qed.
Print Assumptions C82_stops_no_earlier.
(** Once the means no longer improve by the relative threshold, there are at most two more evaluations for every
    reduction allowed. *)
Theorem C82_plateau_stops {W B} (loss : B -> W -> fl) (update : B -> R -> W -> W) lr limit interval w0 (bs : list B) N w rate l m k :
  0 < lr -> (1 <= interval)%nat -> interval_run_of loss update (6 / 10) (1 / 10000) 1 lr limit interval w0 bs N w rate l m ->
  / 100000000 < lr * (6 / 10) ^ (Z.to_nat limit - 1) * (1 - 6 / 10) -> (1 <= k)%nat -> lower (m 0%nat) (Some PInf) ->
  (forall n j, (k <= n < evaluated interval N)%nat -> (j < n)%nat -> ~ clearly_lower (1 / 10000) (m n) (m j)) ->
  (evaluated interval N <= k + Z.to_nat limit * 2)%nat.
Proof.
  intros HL HI (_ & _ & _ & _ & R5 & R6 & _) HR Hk H0 HN. destruct (le_lt_dec (evaluated interval N) (k + Z.to_nat limit * 2)) as [|HG]; [assumption|exfalso].
  destruct (evaluated_reached interval N (k + Z.to_nat limit * 2) HI HG) as (n & Hn & En). destruct (R6 n Hn) as [_ HD]. rewrite En in HD.
  pose proof (plateau_drops (Schedule (6 / 10) 1 (1 / 10000)) lr m rate (Z.to_nat limit) k HL ltac:(cbn; lra) ltac:(cbn; lra) R5 HR Hk H0) as HP. cbn [sc_patience sc_threshold] in HP. change (1 + 1)%nat with 2%nat in HP. specialize (HP ltac:(intros q j Hq Hj; apply HN; [lia|exact Hj])). lia.
Qed.
Print Assumptions C82_plateau_stops.
(** A flat loss, in batches of which two make an interval: training ends after three evaluations, that is, 6 batches. *)
Example C82_stops_nonvacuous : exists r N w rate l m,
  ae_train level drift (1 / 10) 1 1 2 false (fun _ => false) (fun _ => repeat tt 100) 0 = Ok r /\
  interval_run_of level drift (6 / 10) (1 / 10000) 1 (1 / 10) 1 2 0 (repeat tt 100) N w rate l m /\
  (N < 100)%nat /\ l N <> None /\ (2 <= length (tr_history r) <= 3)%nat.
Proof.
  destruct (C82_autoencoder_run level drift (1 / 10) 1 1 2 false (fun _ => false) (fun _ => repeat tt 100) 0) as (r & N & w & rate & l & m & E & HR & HH & _); [lra|lia|lia|discriminate|discriminate|].
  change (filter _ _) with (repeat tt 100) in HR. exists r, N, w, rate, l, m. split; [exact E|]. split; [exact HR|].
  assert (HL : forall n, (n < 100)%nat -> l n = Some (Fin 1)). { intros n Hn. destruct HR as (_ & _ & R3 & _). destruct (nth_error (repeat tt 100) n) as [b|] eqn:EB; [|apply nth_error_None in EB; rewrite repeat_length in EB; lia]. destruct (R3 n b EB) as [-> _]. reflexivity. }
  assert (HM : forall k, (k < 50)%nat -> m k = Some (Fin 1)). { intros k Hk. destruct HR as (_ & _ & _ & R4 & _). destruct (R4 k) as [H _]. unfold evaluation_time in H. cbn [Nat.eqb] in H. cbn [seq map] in H. rewrite (H [1; 1]); [cbn; repeat f_equal; lra|]. rewrite !HL by lia. reflexivity. }
  assert (HN : (N <= 100)%nat) by (destruct HR as (R1 & _); rewrite repeat_length in R1; exact R1).
  assert (HE : (evaluated 2 N <= 50)%nat) by (unfold evaluated; cbn [Nat.eqb]; apply (Nat.div_le_mono N 100 2); lia).
  pose proof (C82_plateau_stops level drift (1 / 10) 1 2 0 (repeat tt 100) N w rate l m 1 ltac:(lra) ltac:(lia) HR ltac:(change (Z.to_nat 1 - 1)%nat with 0%nat; cbn [pow]; lra) (le_n 1)) as HP. change (Z.to_nat 1) with 1%nat in HP.
  assert (H3 : (evaluated 2 N <= 3)%nat). { apply HP; [rewrite HM by lia; exact I|]. intros n j Hn Hj. rewrite !HM by lia. cbn. lra. }
  assert (HN' : (N < 100)%nat) by (destruct (Nat.eq_dec N 100) as [->|]; [exfalso; change (evaluated 2 100) with 50%nat in H3; lia|lia]).
  split; [exact HN'|]. assert (HX : l N <> None) by (rewrite HL by lia; discriminate). split; [exact HX|]. rewrite HH, map_length, seq_length. split; [|exact H3].
  pose proof (C82_stops_no_earlier level drift (1 / 10) 1 2 0 (repeat tt 100) N w rate l m ltac:(lia) HR ltac:(rewrite repeat_length; exact HN') HX) as HQ. exact HQ.
Qed.
(** An interval of zero batches is a division by zero as soon as a batch is used. *)
Theorem C82_interval_zero {W B} (loss : B -> W -> fl) (update : B -> R -> W -> W) lr limit max_epochs norm (small : B -> bool) (loader : nat -> list B) w0 b bs :
  (1 <= max_epochs)%Z -> loader 0%nat = b :: bs -> (small b && norm)%bool = false -> loss b w0 <> None ->
  ae_train loss update lr limit max_epochs 0 norm small loader w0 = Err ZeroDivisionError /\
  flow_train loss update lr limit max_epochs 0 loader w0 = Err ZeroDivisionError.
Proof.
  intros HM HLd HS HN. unfold ae_train, ae_loop, flow_train, flow_loop, range. destruct (Z.to_nat max_epochs) as [|k] eqn:E; [lia|]. cbn [seq for_loop_r]. unfold ae_epoch. rewrite HLd. cbn [for_loop_r]. unfold ae_batch at 1. unfold flow_batch at 1. rewrite HS. cbn [a_start a_w f_start f_w].
  destruct (loss b w0); [|congruence]. split; reflexivity.
Qed.
Print Assumptions C82_interval_zero.
Example C82_interval_zero_nonvacuous : ae_train parabola descend (1 / 4) 3 5 0 true (fun _ => false) (fun _ => [0; 1]) 8 = Err ZeroDivisionError.
Proof. apply (C82_interval_zero parabola descend (1 / 4) 3 5 true (fun _ => false) (fun _ => [0; 1]) 8 0 [1]); [lia|reflexivity|reflexivity|discriminate]. Qed.
(** With batch normalisation and no batch of four or more respondents nothing is trained, silently. *)
Theorem C82_small_batches_refuted {W B} (loss : B -> W -> fl) (update : B -> R -> W -> W) lr limit max_epochs interval (small : B -> bool) (loader : nat -> list B) w0 :
  0 < lr -> (1 <= limit)%Z -> (1 <= interval)%nat -> (forall b w, loss b w <> Some NInf) -> (forall e, loader e <> []) ->
  (forall e b, In b (loader e) -> small b = true) ->
  exists r, ae_train loss update lr limit max_epochs interval true small loader w0 = Ok r /\ tr_w r = w0 /\ tr_history r = [].
Proof.
  intros HL Hlim HI HN HB HS. destruct (C82_autoencoder_run loss update lr limit max_epochs interval true small loader w0 HL Hlim HI HN HB) as (r & N & w & rate & l & m & E & HR & HH & HK). exists r. split; [exact E|].
  assert (EF : filter (fun b => negb (small b && true)) (concat (map loader (seq 0 (Z.to_nat max_epochs)))) = []).
  { destruct (filter _ _) as [|b bs] eqn:EF; [reflexivity|exfalso]. assert (HIn : In b (filter (fun b => negb (small b && true)) (concat (map loader (seq 0 (Z.to_nat max_epochs)))))) by (rewrite EF; now left). apply filter_In in HIn. destruct HIn as [H1 H2].
    apply in_concat in H1. destruct H1 as (x & Hx & Hb). apply in_map_iff in Hx. destruct Hx as (e & <- & _). rewrite (HS e b Hb) in H2. discriminate. }
  rewrite EF in HR. destruct HR as (R1 & R2 & _). assert (N = 0%nat) by (cbn in R1; lia). subst N. assert (E0 : evaluated interval 0 = 0%nat) by (now apply evaluated_0). rewrite E0 in *. split; [|exact HH]. destruct HK as [(k & (F1 & _) & _)|(_ & -> & _)]; [lia|exact R2].
Qed.
Print Assumptions C82_small_batches_refuted.
Example C82_small_batches_nonvacuous : exists r, ae_train parabola descend (1 / 4) 3 1000 50 true (fun _ => true) (fun _ => [0; 1]) 8 = Ok r /\ tr_w r = 8 /\ tr_history r = [].
Proof. apply C82_small_batches_refuted; [lra|lia|lia|exact parabola_finite|discriminate|reflexivity]. Qed.

(** ** C83.  Flow and linking transformations: the same, but what is kept is the last state. *)
Theorem C83_transformation_run {W B} (loss : B -> W -> fl) (update : B -> R -> W -> W) lr limit max_epochs interval (loader : nat -> list B) w0 :
  0 < lr -> (1 <= limit)%Z -> (1 <= interval)%nat ->
  exists N w rate l m,
    flow_train loss update lr limit max_epochs interval loader w0 = Ok (w N) /\
    interval_run_of loss update (6 / 10) (1 / 10000) 1 lr limit interval w0 (concat (map loader (seq 0 (Z.to_nat max_epochs)))) N w rate l m.
Proof.
  intros HL Hlim HI. set (c := Schedule (6 / 10) 1 (1 / 10000)). set (bs := concat (map loader (seq 0 (Z.to_nat max_epochs)))).
  destruct (flow_steps loss update c lr w0 interval bs HI limit Hlim) as (N & H1 & H2 & H3 & H4 & _).
  exists N, (aw loss update c lr w0 interval bs), (ar loss update c lr w0 interval bs), (al loss update c lr w0 interval bs), (mu loss update c lr w0 interval bs). split.
  - unfold flow_train. fold c. rewrite (flow_flat loss update c limit interval HI max_epochs loader (f_start lr w0) eq_refl); [|unfold reached_limit; cbn; apply Z.leb_gt; lia]. cbn [rmap]. f_equal. apply H2.
  - apply (interval_run loss update c lr limit interval w0 bs N HL); [cbn; lra|cbn; lra|exact HI|exact H1|exact H3|exact H4].
Qed.
Print Assumptions C83_transformation_run.
Example C83_transformation_run_nonvacuous : flow_train parabola descend (1 / 4) 1 1 2 (fun _ => [0; 1]) 8 = Ok (5 / 2).
Proof.
  destruct (C83_transformation_run parabola descend (1 / 4) 1 1 2 (fun _ => [0; 1]) 8) as (N & w & rate & l & m & E & (R1 & R2 & R3 & R4 & R5 & R6 & R7)); [lra|lia|lia|].
  change (length _) with 2%nat in R1, R7. rewrite E. destruct (R3 0%nat 0 eq_refl) as [L0 W1]. destruct (R3 1%nat 1 eq_refl) as [L1 W2]. change (evaluated 2 0) with 0%nat in *. change (evaluated 2 1) with 0%nat in *. destruct R5 as [R5 _]. rewrite R5 in W1, W2.
  assert (N = 2%nat). { destruct N as [|[|[|N]]]; [exfalso|exfalso|reflexivity|lia]; (destruct R7 as [H|H]; [lia|first [rewrite L0 in H|rewrite L1 in H]; discriminate|change (drops rate _) with 0%nat in H; cbn in H; lia]). } subst N. f_equal. rewrite W2, W1, R2. unfold descend. lra.
Qed.
(** A NaN loss ends training with the state before it. *)
Theorem C83_nan_loss {W B} (loss : B -> W -> fl) (update : B -> R -> W -> W) lr limit max_epochs interval (loader : nat -> list B) w0 b bs :
  0 < lr -> (1 <= limit)%Z -> (1 <= interval)%nat -> (1 <= max_epochs)%Z -> loader 0%nat = b :: bs -> loss b w0 = None ->
  flow_train loss update lr limit max_epochs interval loader w0 = Ok w0.
Proof.
  intros HL Hlim HI HM HLd HN. unfold flow_train, flow_loop, range. destruct (Z.to_nat max_epochs) as [|k] eqn:E; [lia|]. cbn [seq for_loop_r]. rewrite HLd. cbn [for_loop_r]. unfold flow_batch at 1. cbn [f_start f_w]. rewrite HN. reflexivity.
Qed.
Print Assumptions C83_nan_loss.
Example C83_nan_loss_nonvacuous : flow_train (fun a w => if Rlt_dec w a then None else parabola a w) descend (1 / 4) 1 10 2 (fun _ => [9; 1]) 8 = Ok 8.
Proof. apply (C83_nan_loss (fun a w => if Rlt_dec w a then None else parabola a w) descend (1 / 4) 1 10 2 (fun _ => [9; 1]) 8 9 [1]); [lra|lia|lia|lia|reflexivity|]. destruct (Rlt_dec 8 9); [reflexivity|lra]. Qed.
