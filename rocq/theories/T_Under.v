(** C124: scores and losses of long tests do not underflow.  True of the MML loss, which subtracts the
    largest term before the exponential; false of EAP scores, which do not. *)
From Coq Require Import Lia Lra.
From Verif Require Import Base BaseFacts RBase RFacts M_Data M_CV M_Logit M_Lik S_Lik P_Lik2 M_Est S_Est P_Est1 P_Est2 P_Est3 T_Est M_Under
  P_Single2 P_Single3 P_Under1 P_Under2 P_Under3.
Local Open Scope R_scope.
Import M_Est List.

(** A respondent whose log posterior is -746 or less at every point of the grid gets NaN for a score. *)
Theorem C124_eap_refuted :
  forall dx m p grid logpdf data, double_exponential dx -> library_model m p -> (0 < length grid)%nat ->
    Forall (fun t => length t = em_lv m) grid -> data <> [] -> legal_data (em_cats m) data ->
    exists scores,
      eap_scores_by dx m grid (map (fun t => Some (Fin (logpdf t))) grid) (Wide (em_items m) data) = Ok scores /\
      forall n row, nth_error data n = Some row ->
        (forall t, In t grid -> logpdf t + ln (likelihood p t row) <= -746) ->
        nth_error scores n = Some (repeat None (em_lv m)).
Proof.
  intros dx m p grid logpdf data [_ Z] Hm HG HF Hne Hd. eexists. split.
  - apply (eap_by dx m p); auto.
    + now apply library_has_probabilities.
    + now apply flat_rowwise, (library_flat m p).
    + now apply (library_items m p).
    + intros row t Hr _. apply (library_likelihood m p); [exact Hm|]. unfold legal_data in Hd. rewrite Forall_forall in Hd. auto.
  - intros n row Hn Hs. rewrite nth_error_map, Hn. cbn [option_map]. f_equal.
    rewrite (map_ext _ (fun _ => None)).
    + generalize 0%nat. generalize (em_lv m). clear. intros L. induction L as [|k IH]; intros j; [reflexivity|]. cbn [seq map repeat]. f_equal. apply IH.
    + intros d. cbv zeta. apply (eap_nan dx grid (log_joint p logpdf row) d HG). intros t Ht. apply Z, Hs, Ht.
Qed.
Print Assumptions C124_eap_refuted.

(** 1200 or more items of a one-parameter model, any difficulties in pairs, each pair answered once
    right and once wrong: whatever the grid, NaN (for prior densities not above 1). *)
Theorem C124_long_test_refuted :
  forall dx bs grid logpdf, double_exponential dx -> (600 <= length bs)%nat -> (0 < length grid)%nat ->
    Forall (fun t => length t = 1%nat) grid -> (forall t, In t grid -> logpdf t <= 0) ->
    let m := of_sub (opl_sub (-9) {| opl_items := 2 * length bs; opl_b := flat_map (fun b => [b; b]) bs |}) in
    let row := concat (repeat [Some 1; Some 0]%Z (length bs)) in
    eap_scores_by dx m grid (map (fun t => Some (Fin (logpdf t))) grid) (Wide (2 * length bs) [row]) = Ok [[None]].
Proof.
  intros dx bs grid logpdf Hdx Hk HG HF Hp m row.
  assert (Hb : bs <> []) by (destruct bs; [cbn in Hk; lia|discriminate]).
  destruct (C124_eap_refuted dx m (opl_p (pairs_test bs)) grid logpdf [row] Hdx (pairs_library bs Hb) HG HF ltac:(discriminate))
    as (scores & E & H).
  { constructor; [apply pairs_legal|constructor]. }
  assert (EI : em_items m = (2 * length bs)%nat) by (unfold em_items, m; apply repeat_length).
  rewrite <- EI, E. f_equal.
  assert (H0 : nth_error scores 0 = Some [None]).
  { apply (H 0%nat row eq_refl). intros t Ht. rewrite Forall_forall in HF. specialize (HF t Ht).
    destruct t as [|x [|]]; try discriminate. pose proof (pairs_small bs x Hk) as P. specialize (Hp _ Ht).
    unfold row. fold (pairs_row (length bs)). lra. }
  assert (L : length scores = 1%nat).
  { rewrite (eap_by dx m (opl_p (pairs_test bs))) in E; auto.
    - injection E as <-. reflexivity.
    - apply library_has_probabilities, pairs_library, Hb.
    - apply flat_rowwise, (library_flat m (opl_p (pairs_test bs))), pairs_library, Hb.
    - rewrite EI. lia.
    - discriminate.
    - constructor; [apply pairs_legal|constructor].
    - intros r t [<-|[]] _. apply (library_likelihood m (opl_p (pairs_test bs))); [apply pairs_library, Hb|apply pairs_legal]. }
  destruct scores as [|s [|]]; try discriminate. cbn in H0. congruence.
Qed.
Print Assumptions C124_long_test_refuted.

(** Where some log posterior is above -600, the score is within 2^-50 of the grid's width of the
    posterior mean. *)
Theorem C124_eap :
  forall dx m p grid logpdf data, double_exponential dx -> library_model m p -> (0 < length grid)%nat ->
    (Z.of_nat (length grid) <= 2 ^ 60)%Z ->
    Forall (fun t => length t = em_lv m) grid -> data <> [] -> legal_data (em_cats m) data ->
    exists scores,
      eap_scores_by dx m grid (map (fun t => Some (Fin (logpdf t))) grid) (Wide (em_items m) data) = Ok scores /\
      forall n row, nth_error data n = Some row ->
        (forall t, In t grid -> logpdf t + ln (likelihood p t row) <= 600) ->
        (exists t, In t grid /\ -600 <= logpdf t + ln (likelihood p t row)) ->
        forall d lo hi, (d < em_lv m)%nat -> (forall t, In t grid -> lo <= nth d t 0 <= hi) ->
        exists s v, nth_error scores n = Some s /\ nth_error s d = Some (Some (Fin v)) /\
          Rabs (v - posterior_mean p grid (fun t => exp (logpdf t)) row d) <= (hi - lo) / IZR (2 ^ 50).
Proof.
  intros dx m p grid logpdf data [C _] Hm HG HU HF Hne Hd. eexists.
  assert (LP : forall row t, In row data -> In t grid -> 0 < likelihood p t row).
  { intros row t Hr _. apply (library_likelihood m p); [exact Hm|]. unfold legal_data in Hd. rewrite Forall_forall in Hd. auto. }
  split.
  - apply (eap_by dx m p); auto.
    + now apply library_has_probabilities.
    + now apply flat_rowwise, (library_flat m p).
    + now apply (library_items m p).
  - intros n row Hn Hx Hb d lo hi Hdl Hv. rewrite nth_error_map, Hn. cbn [option_map].
    set (G := INR (length grid)). set (u := / IZR (2 ^ 1074)). set (d0 := / IZR (2 ^ 52)).
    assert (U : 0 < u) by (apply Rinv_0_lt_compat, IZR_lt; reflexivity).
    assert (D : 0 < d0) by (apply Rinv_0_lt_compat, IZR_lt; reflexivity).
    assert (G0 : 0 <= G) by apply pos_INR.
    assert (Ge : G * (u * exp 600) <= d0).
    { assert (GU : G <= IZR (2 ^ 60)) by (unfold G; rewrite INR_IZR_INZ; apply IZR_le; exact HU).
      assert (UE : u * exp 600 <= / IZR (2 ^ 114)).
      { apply Rle_trans with (u * IZR (2 ^ 960)); [apply Rmult_le_compat_l; [lra|exact exp_600]|]. apply Req_le.
        unfold u. change (2 ^ 1074)%Z with (2 ^ 960 * 2 ^ 114)%Z. rewrite mult_IZR. field.
        split; apply Rgt_not_eq, IZR_lt; reflexivity. }
      apply Rle_trans with (IZR (2 ^ 60) * / IZR (2 ^ 114)).
      - apply Rmult_le_compat; [exact G0| |exact GU|exact UE]. apply Rmult_le_pos; [lra|apply Rlt_le, exp_pos].
      - unfold d0. apply Rmult_le_reg_r with (IZR (2 ^ 114)); [apply IZR_lt; reflexivity|].
        rewrite Rmult_assoc, Rinv_l, Rmult_1_r by (apply Rgt_not_eq, IZR_lt; reflexivity).
        apply Rmult_le_reg_l with (IZR (2 ^ 52)); [apply IZR_lt; reflexivity|].
        rewrite <- Rmult_assoc, Rinv_r, Rmult_1_l by (apply Rgt_not_eq, IZR_lt; reflexivity).
        rewrite <- mult_IZR. apply IZR_le. vm_compute. discriminate. }
    assert (D8 : d0 <= / 8).
    { unfold d0. apply Rinv_le_contravar; [lra|]. apply IZR_le. vm_compute. discriminate. }
    destruct (eap_close dx d0 u grid (log_joint p logpdf row) d lo hi C) as [Q1 Q2]; auto; try lra.
    { fold G. lra. }
    fold G in Q2.
    exists (map (fun d1 => let s := rsum (map (fun t => dx (log_joint p logpdf row t)) grid) in
      fsum (map (fun t => fmul (Some (Fin (nth d1 t 0))) (fdiv (Some (Fin (dx (log_joint p logpdf row t)))) (Some (Fin s)))) grid))
      (seq 0 (em_lv m))), (rsum (map (fun t => nth d t 0 * dx (log_joint p logpdf row t)) grid) /
                           rsum (map (fun t => dx (log_joint p logpdf row t)) grid)).
    split; [reflexivity|]. split.
    + rewrite (nth_error_map_seq _ (em_lv m) 0 d) by exact Hdl. f_equal. cbv zeta. apply eap_number. exact Q1.
    + assert (E : forall t, In t grid -> exp (log_joint p logpdf row t) = exp (logpdf t) * likelihood p t row).
      { intros t Ht. unfold log_joint. rewrite exp_plus, exp_ln; [reflexivity|]. apply LP; [eapply nth_error_In; eauto|exact Ht]. }
      assert (E2 : posterior_mean p grid (fun t => exp (logpdf t)) row d =
        rsum (map (fun t => nth d t 0 * exp (log_joint p logpdf row t)) grid) / rsum (map (fun t => exp (log_joint p logpdf row t)) grid)).
      { unfold posterior_mean.
        rewrite (map_ext_in (fun t => exp (log_joint p logpdf row t)) (fun t => exp (logpdf t) * likelihood p t row)) by exact E.
        rewrite (map_ext_in (fun t => nth d t 0 * exp (log_joint p logpdf row t)) (fun t => nth d t 0 * (exp (logpdf t) * likelihood p t row)))
          by (intros t Ht; rewrite (E t Ht); reflexivity).
        f_equal; f_equal; apply map_ext; intros t; ring. }
      rewrite E2. apply Rle_trans with (1 := Q2).
      assert (W : 0 <= hi - lo).
      { destruct grid as [|t grid]; [cbn in HG; lia|]. specialize (Hv t (or_introl eq_refl)). lra. }
      unfold Rdiv. apply Rmult_le_compat_l; [exact W|].
      apply Rle_trans with (4 * d0); [lra|]. apply Req_le. unfold d0.
      change (2 ^ 52)%Z with (4 * 2 ^ 50)%Z. rewrite mult_IZR. field. apply Rgt_not_eq, IZR_lt. reflexivity.
Qed.
Print Assumptions C124_eap.

(** The MML loss with an exponential of relative error d and absolute error u is within 2 (d + Q u) per
    respondent of the exact one, however small the likelihoods. *)
Theorem C124_mml :
  forall dx d u m p points weights data, close_exponential d u dx -> 0 <= d -> 0 <= u -> library_model m p ->
    (0 < length points)%nat -> length weights = length points -> Forall (fun t => length t = em_lv m) points ->
    Forall (fun w => 0 < w) weights -> legal_data (em_cats m) data -> d + INR (length points) * u <= 1 / 2 ->
    exists v, mml_loss_by dx m points (map (fun w => Some (Fin (ln w))) weights) (Wide (em_items m) data) = Ok (Some (Fin v)) /\
      Rabs (v - - rsum (map (fun row => ln (rsum (zip_with (fun w t => w * likelihood p t row) weights points))) data))
        <= INR (length data) * (2 * (d + INR (length points) * u)).
Proof.
  intros dx d u m p points ws data C Hd0 Hu Hm HQ Hl HF Hw Hd He.
  replace (map (fun w => Some (Fin (ln w))) ws) with (map (fun w => flog (Some w)) ws).
  2:{ apply map_ext_in. intros w Hin. rewrite Forall_forall in Hw. now rewrite flog_pos by auto. }
  apply (mml_close dx d u m p); auto.
  - now apply library_has_probabilities.
  - now apply (library_items m p).
  - intros row t Hr _. apply (library_likelihood m p); [exact Hm|]. unfold legal_data in Hd. rewrite Forall_forall in Hd. auto.
Qed.
Print Assumptions C124_mml.

(** A test of 1200 items has NaN for an EAP score but a finite MML loss; three respondents of a short
    test have EAP scores. *)
Example C124_nonvacuous :
  double_exponential some_double /\
  (let m := of_sub (opl_sub (-9) {| opl_items := 1200; opl_b := flat_map (fun b => [b; b]) (repeat (1 / 2) 600) |}) in
   let row := concat (repeat [Some 1; Some 0]%Z 600) in
   eap_scores_by some_double m [[-1]; [0]; [1]] (map (fun t => Some (Fin (- 1))) [[-1]; [0]; [1]]) (Wide 1200 [row]) = Ok [[None]] /\
   exists v, mml_loss_by some_double m [[-1]; [0]; [1]] (map (fun w => Some (Fin (ln w))) [1 / 4; 1 / 2; 1 / 4]) (Wide 1200 [row]) = Ok (Some (Fin v))) /\
  (exists scores, eap_scores_by some_double ex_model [[-1]; [0]] (map (fun t => Some (Fin (- 1))) [[-1]; [0]]) (Wide 2 ex_resp) = Ok scores).
Proof.
  pose proof some_double_ok as H. split; [exact H|]. split; [split|].
  - pose proof (C124_long_test_refuted some_double (repeat (1 / 2) 600) [[-1]; [0]; [1]] (fun _ => -1) H) as T.
    rewrite repeat_length in T. apply T; [lia|cbn; lia|repeat constructor|intros; lra].
  - destruct H as [C _]. set (bs := repeat (1 / 2) 600).
    assert (Lb : length bs = 600%nat) by apply repeat_length.
    assert (Hb : bs <> []) by (intros E; rewrite E in Lb; discriminate).
    destruct (C124_mml some_double _ _ (of_sub (opl_sub (-9) (pairs_test bs))) (opl_p (pairs_test bs)) [[-1]; [0]; [1]] [1 / 4; 1 / 2; 1 / 4]
      [pairs_row (length bs)] C) as (v & E & _).
    + apply Rlt_le, Rinv_0_lt_compat, IZR_lt. reflexivity.
    + apply Rlt_le, Rinv_0_lt_compat, IZR_lt. reflexivity.
    + apply pairs_library, Hb.
    + cbn; lia.
    + reflexivity.
    + repeat constructor.
    + repeat constructor; lra.
    + constructor; [apply pairs_legal|constructor].
    + assert (A1 : / IZR (2 ^ 52) <= / 8) by (apply Rinv_le_contravar; [lra|apply IZR_le; vm_compute; discriminate]).
      assert (A2 : / IZR (2 ^ 1074) <= / 16) by (apply Rinv_le_contravar; [lra|apply IZR_le; vm_compute; discriminate]).
      cbn [length INR]. lra.
    + exists v. unfold pairs_test in E. rewrite Lb in E. exact E.
  - destruct (C124_eap some_double ex_model (opl_p ex_opl) [[-1]; [0]] (fun _ => -1) ex_resp H ex_library) as (scores & E & _).
    + cbn; lia.
    + vm_compute; discriminate.
    + repeat constructor.
    + discriminate.
    + exact ex_resp_legal.
    + exists scores. exact E.
Qed.
