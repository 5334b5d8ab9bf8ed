(** Consequences for the classification metrics. *)
From Verif Require Import Base BaseFacts RBase RFacts M_Data M_Logit M_Lik M_Est M_Stat M_Grid M_Eval S_Lik S_Est S_Eval P_Lik3 P_Stat1 P_Stat3 P_Stat5 P_Eval1 P_Eval2.
Local Open Scope R_scope.

Lemma share0_unit a b : (a <= b)%nat -> 0 <= share0 a b <= 1.
Proof.
  intros H. unfold share0. destruct (Nat.eqb_spec b 0); [lra|]. assert (B : 0 < INR b) by (apply INR_pos; lia). pose proof (pos_INR a). apply le_INR in H.
  split; [apply Rle_mult_inv_pos; assumption|]. apply (Rmult_le_reg_r (INR b)); [exact B|]. unfold Rdiv. rewrite Rmult_assoc, Rinv_l by lra. lra.
Qed.
Lemma chose_seen rows n i k : chose rows n i k = true -> seen rows n i = true.
Proof. unfold chose, seen. destruct (at2 rows n i) as [[z|]|]; try discriminate. intros H. apply Z.eqb_eq in H. destruct (Z.eqb_spec z (-1)); [lia|reflexivity]. Qed.
Lemma chose_unique rows n i k k' : chose rows n i k = true -> chose rows n i k' = true -> k = k'.
Proof. unfold chose. destruct (at2 rows n i) as [[z|]|]; try discriminate. intros H H'. apply Z.eqb_eq in H. apply Z.eqb_eq in H'. lia. Qed.

Section Metrics.
  Variables (N : nat) (rows : list (list cell)) (pred : nat -> nat -> nat) (i K : nat).
  Lemma right_given k : (right N rows pred i k <= given N rows i k)%nat.
  Proof. apply tally_le. intros n _ H. apply andb_true_iff in H. tauto. Qed.
  Lemma right_guessed k : (right N rows pred i k <= guessed N rows pred i k)%nat.
  Proof. apply tally_le. intros n _ H. apply andb_true_iff in H as [H1 H2]. rewrite H2, (chose_seen _ _ _ _ H1). reflexivity. Qed.
  Lemma precision_unit k : 0 <= precision_of N rows pred i k <= 1.
  Proof. apply share0_unit, right_guessed. Qed.
  Lemma recall_unit k : 0 <= recall_of N rows pred i k <= 1.
  Proof. apply share0_unit, right_given. Qed.
  Lemma f1_unit k : 0 <= f1_of N rows pred i k <= 1.
  Proof. apply share0_unit. pose proof (right_guessed k). pose proof (right_given k). lia. Qed.
  (** F1 lies between precision and recall. *)
  Lemma plain_unit f : (0 < K)%nat -> (forall k, 0 <= f k <= 1) -> 0 <= plain_average K f <= 1.
  Proof.
    intros HK H. unfold plain_average. assert (P : 0 < INR K) by (apply INR_pos; exact HK).
    assert (L : 0 <= sumn K f) by (apply sumn_nonneg; intros; apply H).
    assert (U : sumn K f <= INR K).
    { replace (INR K) with (sumn K (fun _ => 1)); [apply sumn_le; intros; apply H|]. clear. induction K as [|k IH]; [reflexivity|]. cbn [sumn]. rewrite IH, S_INR. reflexivity. }
    split; [apply Rle_mult_inv_pos; assumption|]. apply (Rmult_le_reg_r (INR K)); [exact P|]. unfold Rdiv. rewrite Rmult_assoc, Rinv_l by lra. lra.
  Qed.
  Hypothesis legal : forall n, (n < N)%nat -> seen rows n i = true -> exists k, (k < K)%nat /\ chose rows n i k = true.
  Lemma given_total : INR (answerers N rows i) = sumn K (fun k => INR (given N rows i k)).
  Proof.
    unfold answerers, given. apply (tally_sum (fun k n => chose rows n i k)).
    - intros n Hn. apply in_seq in Hn. apply legal. lia.
    - intros n k _. apply chose_seen.
    - intros n j k. apply chose_unique.
  Qed.
  Lemma right_total : INR (tally (fun n => chose rows n i (pred n i)) (everyone N)) = sumn K (fun k => INR (right N rows pred i k)).
  Proof.
    unfold right. apply (tally_sum (fun k n => chose rows n i k && (pred n i =? k)%nat)%bool).
    - intros n Hn H. apply in_seq in Hn. destruct (legal n) as (k & Hk & C); [lia|apply (chose_seen _ _ _ _ H)|].
      exists k. split; [exact Hk|]. rewrite C. rewrite (chose_unique _ _ _ _ _ H C), Nat.eqb_refl. reflexivity.
    - intros n k _ H. apply andb_true_iff in H as [H1 H2]. apply Nat.eqb_eq in H2. rewrite H2. exact H1.
    - intros n j k H H'. apply andb_true_iff in H as [H _]. apply andb_true_iff in H' as [H' _]. apply (chose_unique rows n i); assumption.
  Qed.
  Lemma weighted_unit f x : (forall k, 0 <= f k <= 1) -> weighted_average N rows i K f = Some x -> 0 <= x <= 1.
  Proof.
    intros H E. unfold weighted_average in E. destruct (Nat.eqb_spec (answerers N rows i) 0) as [|NZ]; [discriminate|]. assert (X : x = sumn K (fun k => INR (given N rows i k) / INR (answerers N rows i) * f k)) by congruence. subst x. clear E.
    assert (P : 0 < INR (answerers N rows i)) by (apply INR_pos; lia).
    assert (W : forall k, 0 <= INR (given N rows i k) / INR (answerers N rows i)) by (intros; apply Rle_mult_inv_pos; [apply pos_INR|exact P]).
    split; [apply sumn_nonneg; intros; apply Rmult_le_pos; [apply W|apply H]|].
    apply Rle_trans with (sumn K (fun k => INR (given N rows i k) * / INR (answerers N rows i))).
    - apply sumn_le. intros k _. rewrite <- (Rmult_1_r (INR (given N rows i k) * / INR (answerers N rows i))). apply Rmult_le_compat_l; [apply W|apply H].
    - rewrite sumn_scal_r, <- given_total. rewrite Rinv_r by lra. lra.
  Qed.
  Lemma weighted_recall : weighted_average N rows i K (recall_of N rows pred i) = share (tally (fun n => chose rows n i (pred n i)) (everyone N)) (answerers N rows i).
  Proof.
    unfold weighted_average, share. destruct (Nat.eqb_spec (answerers N rows i) 0) as [|NZ]; [reflexivity|]. f_equal.
    rewrite right_total. unfold Rdiv. rewrite <- sumn_scal_r. apply sumn_ext. intros k _. unfold recall_of, share0.
    assert (P : 0 < INR (answerers N rows i)) by (apply INR_pos; lia).
    pose proof (right_given k) as L. destruct (Nat.eqb_spec (given N rows i k) 0) as [E|E].
    - rewrite E in *. replace (right N rows pred i k) with 0%nat by lia. cbn [INR]. ring.
    - assert (0 < INR (given N rows i k)) by (apply INR_pos; lia). field. split; lra.
  Qed.
  Hypothesis perfect : forall n, (n < N)%nat -> seen rows n i = true -> chose rows n i (pred n i) = true.
  Hypothesis varied : forall k, (k < K)%nat -> (0 < given N rows i k)%nat.
  Lemma perfect_right k : right N rows pred i k = given N rows i k /\ guessed N rows pred i k = given N rows i k.
  Proof.
    unfold right, given, guessed. split; apply tally_ext; intros n Hn; apply in_seq in Hn.
    - destruct (chose rows n i k) eqn:C; [|reflexivity]. cbn [andb]. apply Nat.eqb_eq. apply (chose_unique rows n i); [|exact C]. apply perfect; [lia|]. apply (chose_seen _ _ _ _ C).
    - destruct (seen rows n i) eqn:S; cbn [andb].
      + pose proof (perfect n ltac:(lia) S) as P. destruct (Nat.eqb_spec (pred n i) k) as [<-|NE]; [symmetry; exact P|].
        destruct (chose rows n i k) eqn:C; [|reflexivity]. elim NE. apply (chose_unique rows n i); assumption.
      + destruct (chose rows n i k) eqn:C; [|reflexivity]. rewrite (chose_seen _ _ _ _ C) in S. discriminate.
  Qed.
  Lemma perfect_scores k : (k < K)%nat -> precision_of N rows pred i k = 1 /\ recall_of N rows pred i k = 1 /\ f1_of N rows pred i k = 1.
  Proof.
    intros Hk. specialize (varied k Hk). unfold precision_of, recall_of, f1_of. destruct (perfect_right k) as [E1 E2]. rewrite E1, E2. unfold share0.
    set (g := given N rows i k) in *. assert (0 < INR g) by (apply INR_pos; exact varied).
    destruct (Nat.eqb_spec g 0); [lia|]. destruct (Nat.eqb_spec (g + g) 0); [lia|]. rewrite plus_INR, mult_INR. change (INR 2) with 2.
    split; [|split]; field; lra.
  Qed.
  Lemma perfect_averages f : (0 < K)%nat -> (forall k, (k < K)%nat -> f k = 1) -> plain_average K f = 1 /\ weighted_average N rows i K f = Some 1.
  Proof.
    intros HK H. assert (P : 0 < INR K) by (apply INR_pos; exact HK). split.
    - unfold plain_average. rewrite (sumn_ext K f (fun _ => 1)) by exact H. replace (sumn K (fun _ => 1)) with (INR K); [field; lra|].
      clear. induction K as [|k IH]; [reflexivity|]. cbn [sumn]. rewrite <- IH, S_INR. reflexivity.
    - unfold weighted_average. assert (A : (0 < answerers N rows i)%nat).
      { assert (X : (given N rows i 0 <= answerers N rows i)%nat) by (apply tally_le; intros n _; apply chose_seen). specialize (varied 0%nat HK). lia. }
      assert (0 < INR (answerers N rows i)) by (apply INR_pos; exact A).
      destruct (Nat.eqb_spec (answerers N rows i) 0); [lia|]. f_equal.
      rewrite (sumn_ext K _ (fun k => INR (given N rows i k) * / INR (answerers N rows i))) by (intros k Hk; rewrite (H k Hk); unfold Rdiv; ring).
      rewrite sumn_scal_r, <- given_total. field. lra.
  Qed.
End Metrics.

(** ** Missing responses *)
Definition pick (probs : list (list (list R))) (n i : nat) : nat :=
  match at2 probs n i with Some p => match rargmax p with Ok k => k | Err _ => O end | None => O end.
Lemma pick_top probs : Forall (Forall (fun p : list R => p <> [])) probs -> forall n i p, at2 probs n i = Some p -> top p (pick probs n i).
Proof.
  intros H n i p E. unfold pick. rewrite E. destruct (rargmax_top p) as (k & Ek & T); [|rewrite Ek; exact T].
  unfold at2 in E. destruct (nth_error probs n) as [r|] eqn:R; [|discriminate]. apply nth_error_In in R. apply nth_error_In in E. rewrite Forall_forall in H. specialize (H r R).
  rewrite Forall_forall in H. apply H. exact E.
Qed.
Section Same.
  Variables (probs probs' : list (list (list R))) (rows rows' : list (list cell)).
  Hypothesis same : same_observed probs probs' rows rows'.
  Lemma same_chose n i k : chose rows n i k = chose rows' n i k.
  Proof.
    destruct (same n i) as [S O]. destruct (seen rows n i) eqn:E.
    - destruct (O eq_refl) as [A _]. unfold chose. rewrite A. reflexivity.
    - destruct (chose rows n i k) eqn:C; [rewrite (chose_seen _ _ _ _ C) in E; discriminate|]. destruct (chose rows' n i k) eqn:C'; [|reflexivity].
      rewrite (chose_seen _ _ _ _ C') in S. discriminate.
  Qed.
  Lemma same_pick n i : seen rows n i = true -> pick probs n i = pick probs' n i.
  Proof. intros E. destruct (same n i) as [_ O]. unfold pick. rewrite (proj2 (O E)). reflexivity. Qed.
  Lemma same_hit n i : chose rows n i (pick probs n i) = chose rows' n i (pick probs' n i).
  Proof.
    rewrite same_chose. destruct (seen rows n i) eqn:E; [rewrite (same_pick n i E); reflexivity|]. destruct (same n i) as [S _]. rewrite E in S.
    destruct (chose rows' n i (pick probs n i)) eqn:C; [rewrite (chose_seen _ _ _ _ C) in S; discriminate|].
    destruct (chose rows' n i (pick probs' n i)) eqn:C'; [rewrite (chose_seen _ _ _ _ C') in S; discriminate|reflexivity].
  Qed.
  Lemma same_seen n i : seen rows n i = seen rows' n i.
  Proof. apply same. Qed.
  Lemma same_answerers N i : answerers N rows i = answerers N rows' i.
  Proof. apply tally_ext. intros. apply same_seen. Qed.
  Lemma same_given N i k : given N rows i k = given N rows' i k.
  Proof. apply tally_ext. intros. apply same_chose. Qed.
  Lemma same_right N i k : right N rows (pick probs) i k = right N rows' (pick probs') i k.
  Proof.
    apply tally_ext. intros n _. rewrite <- same_chose. destruct (chose rows n i k) eqn:C; [|reflexivity]. rewrite (same_pick n i) by (apply (chose_seen _ _ _ _ C)). reflexivity.
  Qed.
  Lemma same_guessed N i k : guessed N rows (pick probs) i k = guessed N rows' (pick probs') i k.
  Proof. apply tally_ext. intros n _. rewrite <- same_seen. destruct (seen rows n i) eqn:C; [|reflexivity]. rewrite (same_pick n i C). reflexivity. Qed.
End Same.

Lemma missing_ignored N cats probs probs' rows rows' lv :
  rect N (length cats) probs -> rect N (length cats) probs' -> rect N (length cats) rows -> rect N (length cats) rows' ->
  Forall (Forall (fun p : list R => p <> [])) probs -> Forall (Forall (fun p : list R => p <> [])) probs' -> Forall (fun K => (0 < K)%nat) cats ->
  same_observed probs probs' rows rows' ->
  accuracy probs (Wide (length cats) rows) lv = accuracy probs' (Wide (length cats) rows') lv /\
  predictions cats probs (Wide (length cats) rows) = predictions cats probs' (Wide (length cats) rows').
Proof.
  intros HP HP' HR HR' NE NE' HC HS. split.
  - destruct (accuracy_spec N _ probs rows _ HP HR (pick_top probs NE)) as (A1 & A2 & A3).
    destruct (accuracy_spec N _ probs' rows' _ HP' HR' (pick_top probs' NE')) as (B1 & B2 & B3).
    destruct lv.
    + rewrite A1, B1. do 2 f_equal. apply map_ext. intros i. f_equal; apply tally_ext; intros; [apply same_hit|eapply same_seen]; exact HS.
    + rewrite A2, B2. do 2 f_equal. apply map_ext. intros i. f_equal; apply tally_ext; intros; [apply same_hit|eapply same_seen]; exact HS.
    + rewrite A3, B3. do 2 f_equal. f_equal; apply tally_ext; intros; [apply same_hit|eapply same_seen]; exact HS.
  - destruct (predictions_spec N cats probs rows _ HP HR (pick_top probs NE)) as (ms & E & L & H).
    destruct (predictions_spec N cats probs' rows' _ HP' HR' (pick_top probs' NE')) as (ms' & E' & L' & H').
    rewrite E, E'. f_equal. apply nth_error_ext. intros i. destruct (nth_error cats i) as [K|] eqn:EK.
    + assert (0 < K)%nat by (rewrite Forall_forall in HC; apply HC; apply (nth_error_In _ _ EK)).
      rewrite (H i K), (H' i K) by assumption. unfold plain_average, weighted_average, precision_of, recall_of, f1_of.
      rewrite (same_answerers probs probs' rows rows' HS).
      assert (G : forall k, given N rows i k = given N rows' i k) by (intros; eapply same_given; exact HS).
      assert (R : forall k, right N rows (pick probs) i k = right N rows' (pick probs') i k) by (intros; eapply same_right; exact HS).
      assert (Q : forall k, guessed N rows (pick probs) i k = guessed N rows' (pick probs') i k) by (intros; eapply same_guessed; exact HS).
      f_equal. f_equal;
        try (f_equal; apply sumn_ext; intros; rewrite ?G, ?R, ?Q; reflexivity);
        (destruct (answerers N rows' i =? 0)%nat; [reflexivity|]; f_equal; apply sumn_ext; intros; rewrite ?G, ?R, ?Q; reflexivity).
    + apply nth_error_None in EK. rewrite !(proj2 (nth_error_None _ _)); [reflexivity|lia|lia].
Qed.
