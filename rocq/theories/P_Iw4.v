(** Annealing and the state kept. *)
From Coq Require Import Classical_Prop.
From Verif Require Import Base BaseFacts RBase RFacts M_Data M_Logit M_Lik S_Logit S_Lik M_Est S_Est P_Est2 P_Est3 P_Est5 T_Est S_Iw M_Stat M_Train S_Train T_Train.
Import M_Est List.
Local Open Scope R_scope.

Lemma rate_range factor t p lr l rate : 0 < factor < 1 -> 0 < lr -> rates_follow factor t p lr l rate -> forall n, 0 < rate n <= lr.
Proof.
  intros Hf Hl (R0 & I & A & _ & H). induction n as [|n IH]; [lra|]. destruct (H n) as [H1 H2].
  destruct (classic (A n /\ / 100000000 < rate n * (1 - factor))) as [C|C]; [rewrite (H1 C)|now rewrite (H2 C)].
  split; [apply Rmult_lt_0_compat; lra|]. apply Rle_trans with (rate n * 1); [apply Rmult_le_compat_l; lra|lra].
Qed.
Lemma silent_likelihood p theta n : likelihood p theta (repeat None n) = 1.
Proof.
  unfold likelihood, mapi. generalize O. induction n as [|n IH]; intro s; [reflexivity|]. cbn [repeat mapi_from answer rprod]. rewrite IH. lra.
Qed.
Lemma silent_legal m : length (em_cats m) = em_items m -> legal_data (em_cats m) [repeat None (em_items m)].
Proof.
  intro E. constructor; [|constructor]. split; [rewrite repeat_length; now symmetry|]. intros i c H. left. apply nth_error_In in H. now apply repeat_spec in H.
Qed.
Section SILENT.
Variables (m : emodel) (p : list R -> nat -> nat -> R).
Hypotheses (Hm : library_model m p) (HL : em_lv m = 1%nat).
Lemma silent_value anneal its w z beta : annealing_factor anneal (fst w) its = Ok beta ->
  silent_batch m anneal its w z = Ok (Some (Fin (beta * (snd w ^ 2 / 2)))).
Proof.
  intros Hb. unfold silent_batch. rewrite (C35_elbo m p [repeat None (em_items m)] [[snd w]] [[0]] [[z]] anneal (fst w) its beta Hm); rewrite ?HL.
  - cbn [length sumn nth]. rewrite silent_likelihood, ln_1. unfold kl_standard_normal. cbn [zip_with rsum]. rewrite exp_0. do 3 f_equal. cbn [INR]. field.
  - cbn. lia.
  - apply silent_legal. reflexivity.
  - split; [reflexivity|repeat constructor].
  - split; [reflexivity|repeat constructor].
  - split; [reflexivity|repeat constructor].
  - exact Hb.
Qed.
Definition beta t := Rmin 1 (INR t / INR 5).
Lemma beta_range t : 0 <= beta t <= 1.
Proof. unfold beta. split; [|apply Rmin_l]. apply Rmin_glb; [lra|]. pose proof (pos_INR t). cbn. lra. Qed.
Lemma beta_full t : (5 <= t)%nat -> beta t = 1.
Proof. intro H. apply Rmin_left. apply le_INR in H. cbn in *. lra. Qed.
Lemma loss_at z w : silent_loss m 5 z w = Some (Fin (beta (fst w) * (snd w ^ 2 / 2))).
Proof. unfold silent_loss. now rewrite (silent_value true 5 w z (beta (fst w))) by reflexivity. Qed.
Lemma singles {X} (noise : nat -> X) n : filter (fun _ => negb (true && false)) (concat (map (fun e => [noise e]) (seq 0 n))) = map noise (seq 0 n).
Proof. generalize O. induction n as [|n IH]; intro s; [reflexivity|]. cbn [seq map concat app filter andb negb]. now rewrite <- IH. Qed.
Lemma kept_run noise limit max_epochs : (1 <= limit)%Z -> (60 <= max_epochs <= 2000)%Z ->
  exists r, ae_train (silent_loss m 5) (silent_step 5) (1 / 100000) limit max_epochs 60 false (fun _ => true) (fun e => [noise e]) (0%nat, 1) = Ok r /\
    tr_w r = Nat.iter 60 (silent_step 5 0 (1 / 100000)) (0%nat, 1) /\ tr_best_epoch r = 60%nat.
Proof.
  intros Hlim Hmax. destruct (C82_autoencoder_run (silent_loss m 5) (silent_step 5) (1 / 100000) limit max_epochs 60 false (fun _ => true) (fun e => [noise e]) (0%nat, 1)) as (r & N & w & rate & l & mm & E & HR & HH & HK);
    [lra|exact Hlim|lia|intros b w; rewrite loss_at; discriminate|discriminate|].
  exists r. split; [exact E|]. rewrite singles in HR. pose proof HR as (R1 & R2 & R3 & R4 & R5 & R6 & R7).
  set (M := Z.to_nat max_epochs) in *. assert (HM : (60 <= M <= 2000)%nat) by (unfold M; lia).
  assert (Lbs : length (map noise (seq 0 M)) = M) by now rewrite map_length, seq_length. rewrite Lbs in *.
  assert (R3' : forall n, (n < M)%nat -> l n = Some (Fin (beta (fst (w n)) * (snd (w n) ^ 2 / 2))) /\ w (S n) = silent_step 5 (noise n) (rate (evaluated 60 n)) (w n)).
  { intros n Hn. destruct (R3 n (noise n)) as [A1 A2]; [rewrite (nth_error_map_seq noise M 0 n); f_equal; lia|]. now rewrite A1, loss_at. }
  pose proof (rate_range (6 / 10) (1 / 10000) 1 (1 / 100000) mm rate ltac:(lra) ltac:(lra) R5) as HRt.
  assert (HW : forall n, (n <= M)%nat -> fst (w n) = n /\ 1 - INR n / 100000 <= snd (w n) <= 1).
  { induction n as [|n IH]; intro Hn; [rewrite R2; cbn [fst snd INR]; split; [reflexivity|lra]|]. destruct (IH ltac:(lia)) as (I1 & I2). rewrite (proj2 (R3' n ltac:(lia))). unfold silent_step. cbn [fst snd]. rewrite I1. split; [reflexivity|].
    fold (beta n). pose proof (beta_range n) as Hbn. specialize (HRt (evaluated 60 n)). set (q := rate (evaluated 60 n)) in *. rewrite S_INR.
    assert (HI : INR n <= 2000) by (replace 2000 with (INR 2000) by (rewrite INR_IZR_INZ; reflexivity); apply le_INR; lia).
    set (x := snd (w n)) in *. assert (H0 : 0 <= q * (beta n * x) <= 1 / 100000); [|lra].
    assert (0 <= beta n * x <= 1) by (split; [apply Rmult_le_pos; lra|]; replace 1 with (1 * 1) by ring; apply Rmult_le_compat; lra).
    split; [apply Rmult_le_pos; lra|]. replace (1 / 100000) with (1 / 100000 * 1) by ring. apply Rmult_le_compat; lra. }
  assert (HV : forall n, (n < M)%nat -> l n = Some (Fin (beta n * (snd (w n) ^ 2 / 2)))).
  { intros n Hn. rewrite (proj1 (R3' n Hn)). now rewrite (proj1 (HW n ltac:(lia))). }
  set (v := fun n => beta n * (snd (w n) ^ 2 / 2)) in *.
  assert (HMean : forall k, ((k + 1) * 60 <= M)%nat -> mm k = Some (Fin (sumn 60 (fun i => v (k * 60 + i)%nat) / 60))).
  { intros k Hk. destruct (R4 k) as [H _]. unfold evaluation_time in H. cbn [Nat.eqb] in H. replace ((k + 1) * 60 - 60)%nat with (k * 60)%nat in H by lia.
    rewrite (H (map v (seq (k * 60) 60))).
    - rewrite map_length, seq_length, rsum_map_seq. do 3 f_equal. rewrite INR_IZR_INZ. reflexivity.
    - rewrite map_map. apply map_ext_in. intros n Hn. apply in_seq in Hn. rewrite HV by lia. reflexivity. }
  assert (HN : (60 <= N)%nat).
  { destruct (le_lt_dec M N); [lia|]. assert (HN2 : (Z.to_nat limit * 2 <= evaluated 60 N)%nat).
    - apply (C82_stops_no_earlier (silent_loss m 5) (silent_step 5) (1 / 100000) limit 60 (0%nat, 1) (map noise (seq 0 M)) N w rate l mm Hlim HR); [now rewrite Lbs|]. rewrite HV by lia. discriminate.
    - unfold evaluated in HN2. cbn [Nat.eqb] in HN2. destruct (le_lt_dec 60 N) as [|Hl]; [assumption|]. rewrite (Nat.div_small N 60 Hl) in HN2. lia. }
  assert (M0 : exists y, mm 0%nat = Some (Fin y) /\ y <= 475 / 1000).
  { rewrite HMean by lia. eexists. split; [reflexivity|]. assert (HS : sumn 60 (fun i => v (0 * 60 + i)%nat) <= 285 / 10); [|lra].
    apply Rle_trans with (sumn 60 (fun i => beta i / 2)).
    - apply sumn_le. intros i Hi. cbn [Nat.mul Nat.add]. unfold v. destruct (HW i ltac:(lia)) as (_ & Hx). assert (HI : INR i <= 2000) by (replace 2000 with (INR 2000) by (rewrite INR_IZR_INZ; reflexivity); apply le_INR; lia).
      pose proof (beta_range i). unfold Rdiv. apply Rmult_le_compat_l; [lra|]. assert (snd (w i) ^ 2 <= 1); [|lra]. cbn [pow]. rewrite Rmult_1_r. replace 1 with (1 * 1) by ring. apply Rmult_le_compat; lra.
    - change 60%nat with (5 + 55)%nat. rewrite sumn_split. rewrite (sumn_ext 55 _ (fun _ => 1 / 2)) by (intros k Hk; now rewrite beta_full by lia). rewrite sumn_const.
      replace (INR 55) with 55 by (rewrite INR_IZR_INZ; reflexivity).
      assert (HB : forall t, beta t <= INR t / INR 5) by (intro t; apply Rmin_r). pose proof (HB 0%nat). pose proof (HB 1%nat). pose proof (HB 2%nat). pose proof (HB 3%nat). pose proof (HB 4%nat). cbn [sumn]. cbn in *. lra. }
  assert (MK : forall k, (1 <= k)%nat -> ((k + 1) * 60 <= M)%nat -> exists y, mm k = Some (Fin y) /\ 48 / 100 <= y).
  { intros k Hk Hk2. rewrite HMean by lia. eexists. split; [reflexivity|]. assert (HS : 60 * (48 / 100) <= sumn 60 (fun i => v (k * 60 + i)%nat)); [|lra].
    replace 60 with (INR 60) by (rewrite INR_IZR_INZ; reflexivity). rewrite <- sumn_const. apply sumn_le. intros i Hi. unfold v. rewrite beta_full by lia.
    destruct (HW (k * 60 + i)%nat ltac:(lia)) as (_ & Hx). assert (HI : INR (k * 60 + i) <= 2000) by (replace 2000 with (INR 2000) by (rewrite INR_IZR_INZ; reflexivity); apply le_INR; lia).
    assert ((98 / 100) * (98 / 100) <= snd (w (k * 60 + i)%nat) * snd (w (k * 60 + i)%nat)) by (apply Rmult_le_compat; lra). cbn [pow]. lra. }
  assert (HEv : forall k, (k < evaluated 60 N)%nat -> ((k + 1) * 60 <= M)%nat).
  { intros k Hk. unfold evaluated in Hk. cbn [Nat.eqb] in Hk. pose proof (Nat.mul_div_le N 60). nia. }
  assert (H1 : (0 < evaluated 60 N)%nat) by (unfold evaluated; cbn [Nat.eqb]; apply Nat.div_str_pos; lia).
  destruct M0 as (y0 & E0 & B0).
  destruct HK as [(k & (F1 & _ & F2 & _) & -> & _ & ->)|(F & _)].
  2: { exfalso. apply (F 0%nat H1). rewrite E0. exact I. }
  assert (k = 0%nat).
  { destruct k as [|k]; [reflexivity|exfalso]. destruct (MK (S k) ltac:(lia) (HEv _ F1)) as (y & Ey & By). apply (F2 0%nat H1). rewrite E0, Ey. cbn. lra. }
  subst k. change (evaluation_time 60 0) with 60%nat. split; [|reflexivity].
  assert (HIt : forall n, (n <= 60)%nat -> w n = Nat.iter n (silent_step 5 0 (1 / 100000)) (0%nat, 1)); [|now apply HIt].
  induction n as [|n IH]; intro Hn; [exact R2|]. rewrite (proj2 (R3' n ltac:(lia))). cbn [Nat.iter nat_rect]. change (nat_rect _ _ _ n) with (Nat.iter n (silent_step 5 0 (1 / 100000)) (0%nat, 1)). rewrite IH by lia.
  replace (evaluated 60 n) with 0%nat; [now rewrite (proj1 R5)|]. unfold evaluated. cbn [Nat.eqb]. symmetry. apply Nat.div_small. lia.
Qed.
End SILENT.
