(** Joint estimation of a one-parameter model with two items. *)
From Verif Require Import Base BaseFacts RBase RFacts M_Data M_Logit M_Lik M_Est M_Opt M_Jml P_Logit P_Logit2 P_Logit3 P_Est1 P_Est2 P_Opt2 P_Opt3 P_Max1 P_Item1 S_Suff S_Scoreq S_Opt S_Max S_Logit S_Lik S_Est S_Item S_Ex S_True P_True1 P_True2 P_True3 T_Item T_Scoreq T_Ex.
Import List.
Local Open Scope R_scope.

Lemma joint_items nanl items data scores b : length scores = length data -> lowest_joint nanl items data scores b ->
  lowest_loss (opl_family nanl items) (fun m => jml_loss m (Wide (length (f_cats (opl_family nanl items))) data) (map (fun x => [x]) scores)) b.
Proof.
  intros HL (x & E & H). cbn [f_cats opl_family]. rewrite repeat_length. exists x. split; [exact E|]. intros v' Hv. exact (H scores v' HL Hv).
Qed.
Lemma joint_person nanl items data scores b : (0 < items)%nat -> legal_data (repeat 2%nat items) data -> length scores = length data -> length b = items -> lowest_joint nanl items data scores b ->
  forall r, (r < length data)%nat -> maximum 1 (fun t => likelihood (opl_p (opl_of items b)) t (nth r data [])) [nth r scores 0].
Proof.
  intros HI HD HL Lb (x & E & H) r Hr t Lt. cbv beta. destruct t as [|y [|]]; try discriminate. set (p := opl_p (opl_of items b)). set (m := of_sub (opl_sub nanl (opl_of items b))).
  assert (Hm : library_model m p) by (constructor; [exact Lb|exact HI]). set (s := map (fun n => if (n =? r)%nat then y else nth n scores 0) (seq 0 (length data))).
  assert (Ls : length s = length data) by (unfold s; now rewrite map_length, seq_length).
  assert (V : forall s, length s = length data -> jml_loss (f_model (opl_family nanl items) b) (Wide items data) (map (fun x => [x]) s) = Ok (Some (Fin (sumn (length data) (fun n => - ln (likelihood p [nth n s 0] (nth n data []))))))).
  { intros s0 L0. pose proof (jml_row_value m p (map (fun x => [x]) s0) data Hm ltac:(now rewrite map_length)) as V. etransitivity; [|etransitivity; [apply V|]].
    - cbn [em_cats m of_sub opl_sub logit_sub sb_cats]. rewrite repeat_length. reflexivity.
    - apply Forall_forall. intros t Ht. apply in_map_iff in Ht as (z & <- & _). reflexivity.
    - exact HD.
    - do 3 f_equal. rewrite (rsum_mapi []). apply sumn_ext. intros n Hn. do 3 f_equal. rewrite (nth_indep _ [] [0]) by (rewrite map_length; lia). now rewrite (map_nth (fun x => [x])). }
  rewrite (V scores HL) in E. injection E as E. destruct (H s b Ls Lb) as (z & Ez & Hz). rewrite (V s Ls) in Ez. injection Ez as Ez. subst x z.
  assert (LK : forall t, length t = 1%nat -> 0 < likelihood p t (nth r data [])) by (intros t Lt'; apply (library_likelihood m p); auto; unfold legal_data in HD; rewrite Forall_forall in HD; now apply HD, nth_In).
  destruct (Rle_or_lt (likelihood p [y] (nth r data [])) (likelihood p [nth r scores 0] (nth r data []))) as [|G]; [assumption|]. exfalso.
  assert (NS : forall n, (n < length data)%nat -> nth n s 0 = if (n =? r)%nat then y else nth n scores 0) by (intros n Hn; unfold s; now rewrite nth_map_seq).
  assert (sumn (length data) (fun n => - ln (likelihood p [nth n s 0] (nth n data []))) < sumn (length data) (fun n => - ln (likelihood p [nth n scores 0] (nth n data [])))); [|lra].
  assert (LN : ln (likelihood p [nth r scores 0] (nth r data [])) < ln (likelihood p [y] (nth r data []))) by (apply ln_increasing; [now apply LK|exact G]).
  apply sumn_lt.
  - intros n Hn. rewrite NS by exact Hn. destruct (Nat.eqb_spec n r) as [->|]; lra.
  - exists r. split; [exact Hr|]. rewrite NS, Nat.eqb_refl by exact Hr. lra.
Qed.
Lemma counts_two data : Forall (fun row => row = first_right \/ row = second_right) data ->
  INR (times data first_right) + INR (times data second_right) = INR (length data) /\ answered_count data 0 1 = INR (times data first_right) /\ (forall c, over_answered data 0 (fun _ => c) = INR (length data) * c).
Proof.
  unfold answered_count, over_answered. induction data as [|row data IH]; intro HF; [unfold times; cbn; repeat split; intros; ring|]. destruct (IH (Forall_inv_tail HF)) as (I1 & I2 & I3).
  assert (HC : forall row', times (row :: data) row' = ((if list_eq_dec cell_dec row row' then 1 else 0) + times data row')%nat) by (intro row'; unfold times; cbn [count_occ]; destruct (list_eq_dec cell_dec row row'); reflexivity). rewrite !HC, !plus_INR. cbn [length]. rewrite sumn_S_first, S_INR. cbn [nth].
  assert (C0 : forall f, sumn (length data) (fun k => f (nth (S k) (row :: data) [])) = sumn (length data) (fun k => f (nth k data []))) by reflexivity.
  split; [|split].
  - destruct (Forall_inv HF) as [-> | ->]; [destruct (list_eq_dec cell_dec first_right first_right); [|congruence]; destruct (list_eq_dec cell_dec first_right second_right); [discriminate|]|destruct (list_eq_dec cell_dec second_right second_right); [|congruence]; destruct (list_eq_dec cell_dec second_right first_right); [discriminate|]]; cbn [INR]; lra.
  - rewrite I2. set (T := INR (times data first_right)). clearbody T. destruct (Forall_inv HF) as [-> | ->]; [destruct (list_eq_dec cell_dec first_right first_right); [|congruence]|destruct (list_eq_dec cell_dec second_right first_right); [discriminate|]]; cbv -[Rplus IZR]; try ring.
  - intro c. rewrite sumn_S_first. cbn [nth]. rewrite I3. destruct (Forall_inv HF) as [-> | ->]; cbn; ring.
Qed.
Lemma legal_two data : Forall (fun row => row = first_right \/ row = second_right) data -> legal_data (repeat 2%nat 2) data.
Proof.
  intro H. apply Forall_forall. intros row Hr. rewrite Forall_forall in H. destruct (H row Hr) as [-> | ->]; (split; [reflexivity|]); intros [|[|i]] c Hc; cbn in Hc; try (destruct i; discriminate); injection Hc as <-; right; right; [exists 1%nat|exists 0%nat|exists 0%nat|exists 1%nat]; cbn; split; (reflexivity || lia).
Qed.
Lemma joint_doubles nanl data scores b : Forall (fun row => row = first_right \/ row = second_right) data -> (0 < times data first_right)%nat -> (0 < times data second_right)%nat ->
  length scores = length data -> length b = 2%nat -> lowest_joint nanl 2 data scores b -> nth 0 b 0 - nth 1 b 0 = 2 * ln (INR (times data first_right) / INR (times data second_right)).
Proof.
  intros HF H1 H2 HL Lb HJ. pose proof (legal_two data HF) as HD. destruct (counts_two data HF) as (C1 & C2 & C3). apply lt_INR in H1, H2. cbn [INR] in H1, H2.
  set (b0 := nth 0 b 0) in *. set (b1 := nth 1 b 0) in *.
  assert (HP : forall r, (r < length data)%nat -> nth r scores 0 = - (b0 + b1) / 2).
  { intros r Hr. pose proof (joint_person nanl 2 data scores b ltac:(lia) HD HL Lb HJ r Hr) as HM. set (m := opl_of 2 b).
    assert (HLr : legal_row (em_cats (of_sub (opl_sub nanl m))) (nth r data [])) by (unfold legal_data in HD; rewrite Forall_forall in HD; now apply HD, nth_In).
    pose proof (proj1 (C107_ml (of_sub (opl_sub nanl m)) (opl_p m) _ (nth r data []) [nth r scores 0] (weights_opl nanl m Lb ltac:(cbn; lia)) HLr eq_refl) HM) as HM'. clear HM. rename HM' into HM. specialize (HM 0%nat ltac:(cbn; lia)). set (x := nth r scores 0) in *.
    assert (Q : logistic (x + b0) + logistic (x + b1) = 1).
    { assert (Hin : In (nth r data []) data) by (now apply nth_In). rewrite Forall_forall in HF. destruct (HF _ Hin) as [Er|Er]; rewrite Er in HM; unfold S_Scoreq.expected_total, S_Suff.total, opl_p in HM; cbn in HM; fold b0 b1 in HM; change (INR (Pos.to_nat 1)) with 1 in HM; lra. }
    assert (Q2 : logistic (x + b0) = logistic (- (x + b1))) by (rewrite <- P_Opt2.logistic_opp; lra).
    assert (x + b0 = - (x + b1)) by (apply Rle_antisym; apply logistic_le_iff; rewrite Q2; apply Rle_refl). lra. }
  pose proof (C108_jml_counts (opl_family nanl 2) data (map (fun x => [x]) scores) b 0 1 (par_opl nanl 2 ltac:(lia)) HD ltac:(now rewrite map_length)) as Q. rewrite C2 in Q.
  assert (E : INR (times data first_right) = INR (length data) * logistic ((b0 - b1) / 2)).
  { rewrite Q; [|apply Forall_forall; intros t Ht; apply in_map_iff in Ht as (z & <- & _); reflexivity|exact Lb|now apply joint_items|cbn; lia|cbn; lia]. rewrite <- (C3 (logistic ((b0 - b1) / 2))). unfold over_answered. apply sumn_ext. intros r Hr.
    destruct (answer (nth 0 (nth r data []) None)); [|reflexivity]. rewrite (nth_indep _ [] [0]) by (rewrite map_length; lia). rewrite (map_nth (fun x => [x])), HP by exact Hr. unfold f_p, opl_family, opl_p. cbn. fold b0. f_equal. field. }
  rewrite logistic_exp in E. set (e := exp ((b0 - b1) / 2)) in *. assert (He : 0 < e) by apply exp_pos. rewrite <- C1 in E.
  assert (R : INR (times data first_right) / INR (times data second_right) = e).
  { apply (Rmult_eq_reg_r (INR (times data second_right))); [|lra]. replace (_ / _ * _) with (INR (times data first_right)) by (field; lra). apply (Rmult_eq_compat_r (1 + e)) in E. replace (_ * (e / (1 + e)) * (1 + e)) with ((INR (times data first_right) + INR (times data second_right)) * e) in E by (field; lra). lra. }
  rewrite R. unfold e. rewrite ln_exp. field.
Qed.
Lemma joint_two nanl data : Forall (fun row => row = first_right \/ row = second_right) data -> (0 < times data first_right)%nat -> (0 < times data second_right)%nat ->
  exists scores b, length scores = length data /\ length b = 2%nat /\ lowest_joint nanl 2 data scores b.
Proof.
  intros HF H1 H2. apply (C119_joint nanl 2 data ltac:(lia) (legal_two data HF)). intros (person & item & HC & r & i & k & Hr & Ea & Hne).
  assert (G : forall row, (0 < times data row)%nat -> exists r, (r < length data)%nat /\ nth r data [] = row) by (intros row Ht; apply (In_nth _ _ []); unfold times in Ht; now apply count_occ_In in Ht).
  destruct (G _ H1) as (r1 & L1 & E1). destruct (G _ H2) as (r2 & L2 & E2).
  pose proof (HC r1 0%nat 1%nat L1 ltac:(rewrite E1; reflexivity)) as [_ A1]. pose proof (HC r1 1%nat 0%nat L1 ltac:(rewrite E1; reflexivity)) as [A2 _].
  pose proof (HC r2 0%nat 0%nat L2 ltac:(rewrite E2; reflexivity)) as [A3 _]. pose proof (HC r2 1%nat 1%nat L2 ltac:(rewrite E2; reflexivity)) as [_ A4].
  pose proof (HC r i k Hr Ea) as [B1 B2]. assert (Hin : In (nth r data []) data) by (now apply nth_In). rewrite Forall_forall in HF.
  assert (Hrow : forall j, (j < 2)%nat -> exists a, answer (nth j (nth r data []) None) = Some a) by (intros j Hj; destruct (HF _ Hin) as [-> | ->]; destruct j as [|[|]]; try lia; eexists; reflexivity).
  assert (Hi : (i < 2)%nat) by (destruct (Nat.lt_ge_cases i 2); [assumption|]; rewrite nth_overflow in Ea by (destruct (HF _ Hin) as [-> | ->]; cbn; lia); discriminate).
  (* both items lie on the same side, and so do both kinds of respondents *)
  destruct (person r1) eqn:P1, (person r2) eqn:P2, (item 0%nat) eqn:I0, (item 1%nat) eqn:I1; try (specialize (A1 eq_refl eq_refl); discriminate); try (specialize (A2 eq_refl eq_refl); discriminate); try (specialize (A3 eq_refl eq_refl); discriminate); try (specialize (A4 eq_refl eq_refl); discriminate).
  - assert (II : item i = true) by (destruct i as [|[|]]; [exact I0|exact I1|lia]). rewrite II in *. destruct (person r) eqn:Pr; [congruence|]. destruct (HF _ Hin) as [Er|Er]; [pose proof (proj2 (HC r 0%nat 1%nat Hr ltac:(rewrite Er; reflexivity)) Pr I0)|pose proof (proj2 (HC r 1%nat 1%nat Hr ltac:(rewrite Er; reflexivity)) Pr I1)]; discriminate.
  - assert (II : item i = false) by (destruct i as [|[|]]; [exact I0|exact I1|lia]). rewrite II in *. destruct (person r) eqn:Pr; [|congruence]. destruct (HF _ Hin) as [Er|Er]; [pose proof (proj1 (HC r 1%nat 0%nat Hr ltac:(rewrite Er; reflexivity)) Pr I1)|pose proof (proj1 (HC r 0%nat 0%nat Hr ltac:(rewrite Er; reflexivity)) Pr I0)]; discriminate.
Qed.
Lemma odds_two b x : length b = 2%nat -> likelihood (opl_p (opl_of 2 b)) [x] first_right = exp (nth 0 b 0 - nth 1 b 0) * likelihood (opl_p (opl_of 2 b)) [x] second_right.
Proof.
  intros Lb. unfold likelihood, opl_p. cbn. change (Pos.to_nat 1 =? 1)%nat with true. cbv iota. set (b0 := nth 0 b 0). set (b1 := nth 1 b 0). rewrite !logistic_compl, !logistic_exp.
  assert (H0 : 0 < exp (x + b0)) by apply exp_pos. assert (H1 : 0 < exp (x + b1)) by apply exp_pos. assert (E : exp (x + b0) = exp (b0 - b1) * exp (x + b1)) by (rewrite <- exp_plus; f_equal; ring). rewrite E in *. field. lra.
Qed.
