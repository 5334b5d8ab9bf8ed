(** Average losses under the truth, for any models estimated by the probabilities they report. *)
From Coq Require Import Lra.
From Verif Require T_Flex.
From Verif Require Import Base BaseFacts RBase RFacts M_Data M_Logit M_Lik M_Est M_Opt M_Jml P_Logit P_Logit2 P_Logit3 P_Est1 P_Est2 P_Opt3 P_Max1 S_Logit S_Lik S_Est S_Item S_True S_Flex S_Betw S_Cmp P_True1 P_True2 P_True3.
Import List.
Local Open Scope R_scope.

Lemma any_total lv cats p : distributions lv cats p -> forall t, length t = lv -> forall i, (i < length cats)%nat -> sumn (nth i cats O) (p t i) = 1.
Proof. intros HD t Ht i Hi. apply (HD t i (nth i cats O) Ht). now apply nth_error_nth_lt. Qed.
Lemma any_likelihood_total lv cats p seen t : distributions lv cats p -> length t = lv -> length seen = length cats -> over (possible_rows cats seen) (likelihood p t) = 1.
Proof. intros HD Ht HL. exact (rows_total cats seen (p t) HL (any_total lv cats p HD t Ht)). Qed.
Lemma rule_nth lv points weights q : rule lv points weights -> (q < length points)%nat -> length (nth q points []) = lv.
Proof. intros (_ & _ & L & _) Hq. rewrite Forall_forall in L. apply L. now apply nth_In. Qed.
Lemma any_marginal_total m p seen points weights : estimated_by m p -> length seen = length (em_cats m) -> rule (em_lv m) points weights -> over (possible_rows (em_cats m) seen) (marginal_likelihood p points weights) = rsum weights.
Proof.
  intros [HD _] HL HR. pose proof HR as (_ & L1 & _ & _). rewrite (over_ext _ _ (fun row => sumn (length points) (fun q => nth q weights 0 * likelihood p (nth q points []) row))) by (intros; now apply marginal_sumn).
  rewrite over_sumn. rewrite (sumn_ext _ _ (fun q => nth q weights 0)) by (intros q Hq; rewrite over_scal, (any_likelihood_total (em_lv m) (em_cats m) p seen) by (auto; now apply (rule_nth _ points weights)); ring). now rewrite <- L1, <- rsum_nth.
Qed.
Lemma any_marginal_positive m p points weights row : estimated_by m p -> rule (em_lv m) points weights -> legal_row (em_cats m) row -> 0 < marginal_likelihood p points weights row.
Proof.
  intros [HD _] HR HG. pose proof HR as (L0 & L1 & _ & L3). rewrite marginal_sumn by exact L1. apply RFacts.sumn_pos; [destruct points; [congruence|cbn; lia]|]. intros q Hq. apply Rmult_lt_0_compat; [rewrite Forall_forall in L3; apply L3, nth_In; lia|]. apply (T_Flex.likelihood_positive (em_lv m) (em_cats m)); auto. now apply (rule_nth _ points weights).
Qed.
Lemma any_share_total m p seen points weights : estimated_by m p -> length seen = length (em_cats m) -> rule (em_lv m) points weights -> over (possible_rows (em_cats m) seen) (fun row => marginal_likelihood p points weights row / rsum weights) = 1.
Proof.
  intros Hm HL HR. pose proof (rule_total _ _ _ HR). rewrite (over_ext _ _ (fun row => / rsum weights * marginal_likelihood p points weights row)) by (intros; unfold Rdiv; ring). rewrite over_scal, (any_marginal_total m p seen points weights Hm HL HR). field. lra.
Qed.
Lemma any_mml_row_value m p points weights data : estimated_by m p -> data <> [] -> rule (em_lv m) points weights -> legal_data (em_cats m) data ->
  mml_loss m points (map (fun w => Some (Fin (ln w))) weights) (Wide (length (em_cats m)) data) = Ok (Some (Fin (rsum (mapi (fun _ row => - ln (marginal_likelihood p points weights row)) data)))).
Proof.
  intros [_ (S1 & _)] Hne (HP & L1 & L2 & L3) HD. etransitivity; [exact (S1 points weights data HP Hne L1 L2 L3 HD)|]. do 3 f_equal. clear Hne. unfold mapi. generalize 0%nat. induction data as [|row data IH]; intro n; [cbn; ring|]. cbn [map rsum mapi_from]. rewrite <- (IH (Forall_inv_tail HD) (S n)). unfold marginal_likelihood. ring.
Qed.
Lemma any_jml_row_value m p thetas data : jointly_by m p -> data <> [] -> length thetas = length data -> Forall (fun t => length t = em_lv m) thetas -> legal_data (em_cats m) data ->
  jml_loss m (Wide (length (em_cats m)) data) thetas = Ok (Some (Fin (rsum (mapi (fun r row => - ln (likelihood p (nth r thetas []) row)) data)))).
Proof.
  intros [_ S2] Hne HL HT HD. etransitivity; [exact (S2 thetas data Hne HT HL HD)|]. do 3 f_equal. rewrite (rsum_mapi []). rewrite <- (Rmult_1_l (sumn _ _)), <- Ropp_mult_distr_l_reverse, <- sumn_scal. apply sumn_ext. intros r _. ring.
Qed.
Lemma tables_nonempty cats seen data : seen <> [] -> In data (possible_data cats seen) -> data <> [].
Proof. intros HS H E. destruct (tables_in cats seen data H) as [HL _]. subst data. destruct seen; [congruence|discriminate]. Qed.
Lemma any_mml_average m p points weights m' p' points' weights' seen : estimated_by m p -> estimated_by m' p' -> em_cats m' = em_cats m -> rule (em_lv m) points weights -> rule (em_lv m') points' weights' -> rsum weights' = rsum weights -> seen <> [] -> Forall (fun s => length s = length (em_cats m)) seen ->
  let loss m points weights data := mml_loss m points (map (fun w => Some (Fin (ln w))) weights) (Wide (length (em_cats m)) data) in
  let average := average_loss (em_cats m) seen (fun _ row => marginal_likelihood p points weights row / rsum weights) in
  always_finite (em_cats m) seen (loss m' points' weights') /\ average (loss m points weights) <= average (loss m' points' weights') /\
  (average (loss m' points' weights') = average (loss m points weights) <->
   forall s row, In s seen -> In row (possible_rows (em_cats m) s) -> marginal_likelihood p' points' weights' row = marginal_likelihood p points weights row).
Proof.
  intros Hm Hm' EC HR HR' EW Hne HS loss average. set (W := rsum weights) in *. pose proof (rule_total _ _ _ HR) as HW. fold W in HW. set (q := fun (_ : nat) row => marginal_likelihood p points weights row / W).
  destruct (average_value (em_cats m) seen q (loss m points weights) (fun _ row => - ln (marginal_likelihood p points weights row))) as [_ A1].
  { intros data Hd. apply (any_mml_row_value _ _ _ _ _); auto; [now apply (tables_nonempty (em_cats m) seen)|]. now apply (tables_legal _ seen). }
  destruct (average_value (em_cats m) seen q (loss m' points' weights') (fun _ row => - ln (marginal_likelihood p' points' weights' row))) as [F2 A2].
  { intros data Hd. apply (any_mml_row_value _ _ _ _ _); auto; [now apply (tables_nonempty (em_cats m) seen)|]. rewrite EC. now apply (tables_legal _ seen). }
  assert (LS : forall r, (r < length seen)%nat -> length (nth r seen []) = length (em_cats m)) by (intros r Hr; rewrite Forall_forall in HS; now apply HS, nth_In).
  assert (QT : forall r, (r < length seen)%nat -> over (possible_rows (em_cats m) (nth r seen [])) (q r) = 1) by (intros r Hr; apply any_share_total; auto).
  assert (SH : forall M : list cell -> R, (forall r row, (r < length seen)%nat -> In row (possible_rows (em_cats m) (nth r seen [])) -> 0 < M row) ->
    over (possible_data (em_cats m) seen) (fun data => table_probability q data * rsum (mapi (fun _ row => - ln (M row)) data)) =
    over (possible_data (em_cats m) seen) (fun data => table_probability q data * rsum (mapi (fun _ row => - ln (M row / W)) data)) - INR (length seen) * ln W).
  { intros M HM. rewrite (proj2 (average_additive (em_cats m) seen q _ QT)), (proj2 (average_additive (em_cats m) seen q (fun _ row => - ln (M row / W)) QT)). rewrite <- sumn_const, <- sumn_minus. apply sumn_ext. intros r Hr.
    rewrite (over_ext _ _ (fun row => q r row * - ln (M row / W) + - ln W * q r row)); [rewrite over_plus, over_scal, QT by exact Hr; ring|]. intros row Hrow. specialize (HM r row Hr Hrow). unfold Rdiv. rewrite ln_mult, ln_Rinv by (auto using Rinv_0_lt_compat). ring. }
  assert (PM : forall r row, (r < length seen)%nat -> In row (possible_rows (em_cats m) (nth r seen [])) -> 0 < marginal_likelihood p points weights row /\ 0 < marginal_likelihood p' points' weights' row).
  { intros r row Hr Hrow. pose proof (rows_legal _ _ row (LS r Hr) Hrow). split; [now apply (any_marginal_positive m)|]. apply (any_marginal_positive m'); auto. now rewrite EC. }
  destruct (average_best (em_cats m) seen q (fun _ row => marginal_likelihood p' points' weights' row / W)) as [B1 B2].
  { intros r row Hr Hrow. destruct (PM r row Hr Hrow). split; apply Rdiv_lt_0_compat; assumption. }
  { intros r Hr. split; [now apply QT|]. rewrite <- EW, <- EC. apply any_share_total; auto. rewrite EC; auto. }
  split; [exact F2|]. unfold average. fold q. rewrite A1, A2. rewrite (SH (marginal_likelihood p points weights)) by (intros; now apply (PM r)). rewrite (SH (marginal_likelihood p' points' weights')) by (intros; now apply (PM r)).
  split; [apply Rplus_le_compat_r; exact B1|]. split.
  - intros H s row Hs Hrow. apply (In_nth _ _ []) in Hs as (r & Hr & <-). assert (E : marginal_likelihood p' points' weights' row / W = marginal_likelihood p points weights row / W) by (refine (proj1 B2 _ r row Hr Hrow); apply Rplus_eq_reg_r in H; exact H). apply (Rmult_eq_reg_r (/ W)); [exact E|apply Rinv_neq_0_compat; lra].
  - intro H. f_equal. apply B2. intros r row Hr Hrow. unfold q. f_equal. apply (H (nth r seen [])); [now apply nth_In|exact Hrow].
Qed.
Lemma any_jml_average m p thetas m' p' thetas' seen : jointly_by m p -> jointly_by m' p' -> em_cats m' = em_cats m -> length thetas = length seen -> length thetas' = length seen ->
  Forall (fun t => length t = em_lv m) thetas -> Forall (fun t => length t = em_lv m') thetas' -> seen <> [] -> Forall (fun s => length s = length (em_cats m)) seen ->
  let loss m thetas data := jml_loss m (Wide (length (em_cats m)) data) thetas in
  let average := average_loss (em_cats m) seen (fun r => likelihood p (nth r thetas [])) in
  always_finite (em_cats m) seen (loss m' thetas') /\ average (loss m thetas) <= average (loss m' thetas') /\
  (average (loss m' thetas') = average (loss m thetas) <->
   forall r i k, (r < length seen)%nat -> nth i (nth r seen []) false = true -> (k < nth i (em_cats m) O)%nat -> p' (nth r thetas' []) i k = p (nth r thetas []) i k).
Proof.
  intros Hm Hm' EC HL HL' HT HT' Hne HS loss average.
  destruct (average_value (em_cats m) seen (fun r => likelihood p (nth r thetas [])) (loss m thetas) (fun r row => - ln (likelihood p (nth r thetas []) row))) as [_ A1].
  { intros data Hd. apply (any_jml_row_value _ _ _ _); auto; [now apply (tables_nonempty (em_cats m) seen)|destruct (tables_in _ _ _ Hd); lia|]. now apply (tables_legal _ seen). }
  destruct (average_value (em_cats m) seen (fun r => likelihood p (nth r thetas [])) (loss m' thetas') (fun r row => - ln (likelihood p' (nth r thetas' []) row))) as [F2 A2].
  { intros data Hd. apply (any_jml_row_value _ _ _ _); auto; [now apply (tables_nonempty (em_cats m) seen)|destruct (tables_in _ _ _ Hd); lia|]. rewrite EC. now apply (tables_legal _ seen). }
  assert (LS : forall r, (r < length seen)%nat -> length (nth r seen []) = length (em_cats m)) by (intros r Hr; rewrite Forall_forall in HS; now apply HS, nth_In).
  assert (LT : forall r, (r < length seen)%nat -> length (nth r thetas []) = em_lv m /\ length (nth r thetas' []) = em_lv m') by (intros r Hr; rewrite Forall_forall in HT, HT'; split; [apply HT|apply HT']; apply nth_In; lia).
  destruct (average_best (em_cats m) seen (fun r => likelihood p (nth r thetas [])) (fun r => likelihood p' (nth r thetas' []))) as [B1 B2].
  { intros r row Hr Hrow. pose proof (rows_legal _ _ row (LS r Hr) Hrow) as HLr. destruct (LT r Hr). destruct Hm as [D1 _], Hm' as [D2 _]. split; [now apply (T_Flex.likelihood_positive (em_lv m) (em_cats m))|]. apply (T_Flex.likelihood_positive (em_lv m') (em_cats m')); auto. now rewrite EC. }
  { intros r Hr. destruct Hm as [D1 _], Hm' as [D2 _], (LT r Hr). split; [apply (any_likelihood_total (em_lv m)); auto|]. rewrite <- EC. apply (any_likelihood_total (em_lv m')); auto. rewrite EC; auto. }
  split; [exact F2|]. unfold average. rewrite A1, A2. split; [exact B1|]. rewrite B2. split.
  - intros H r i k Hr Hs Hk. assert (Hi : (i < length (em_cats m))%nat) by (destruct (Nat.lt_ge_cases i (length (em_cats m))) as [|G]; [assumption|]; rewrite nth_overflow in Hk by exact G; lia).
    apply (rows_equal (em_cats m) (nth r seen []) (p (nth r thetas [])) (p' (nth r thetas' [])) (LS r Hr)); auto; [destruct Hm as [D1 _]; apply (any_total (em_lv m)); [exact D1|apply (LT r Hr)]|intros j Hj; destruct Hm' as [D2 _]; rewrite <- EC; apply (any_total (em_lv m')); [exact D2|apply (LT r Hr)|now rewrite EC]|]. intros row Hrow. exact (H r row Hr Hrow).
  - intros H r row Hr Hrow. unfold likelihood. f_equal. pose proof (rows_legal _ _ row (LS r Hr) Hrow) as [L1 L2].
    apply nth_error_ext. intro i. rewrite !nth_error_mapi. destruct (nth_error row i) as [c|] eqn:Ec; [|reflexivity]. cbn [option_map]. f_equal. destruct (answer c) as [k|] eqn:Ea; [|reflexivity].
    destruct (rows_seen (em_cats m) (nth r seen []) row i k Hrow (LS r Hr)) as [S1 S2]; [rewrite (nth_error_nth _ _ None Ec); exact Ea|]. now apply H.
Qed.
Lemma any_mml_exact m p points weights m' p' points' weights' s data : estimated_by m p -> estimated_by m' p' -> em_cats m' = em_cats m -> rule (em_lv m) points weights -> rule (em_lv m') points' weights' -> rsum weights' = rsum weights ->
  length s = length (em_cats m) -> data <> [] -> Forall (fun row => In row (possible_rows (em_cats m) s)) data ->
  (forall row, In row (possible_rows (em_cats m) s) -> INR (times data row) = INR (length data) * (marginal_likelihood p points weights row / rsum weights)) ->
  let loss m points weights := mml_loss m points (map (fun w => Some (Fin (ln w))) weights) (Wide (length (em_cats m)) data) in
  exists x x', loss m points weights = Ok (Some (Fin x)) /\ loss m' points' weights' = Ok (Some (Fin x')) /\ x <= x' /\
    (x' = x <-> forall row, In row (possible_rows (em_cats m) s) -> marginal_likelihood p' points' weights' row = marginal_likelihood p points weights row).
Proof.
  intros Hm Hm' EC HR HR' EW HS HD HF HT loss. set (W := rsum weights) in *. pose proof (rule_total _ _ _ HR) as HW. fold W in HW. assert (LD : legal_data (em_cats m) data) by (apply Forall_forall; intros row Hr; rewrite Forall_forall in HF; apply (rows_legal _ s); auto).
  do 2 eexists. split; [apply (any_mml_row_value m p); eauto|]. split; [apply (any_mml_row_value m' p'); eauto; now rewrite EC|].
  set (M := marginal_likelihood p points weights) in *. set (M' := marginal_likelihood p' points' weights') in *. assert (HN : 0 < INR (length data)) by (apply lt_0_INR; destruct data; [congruence|cbn; lia]).
  assert (QT : over (possible_rows (em_cats m) s) (fun row => M row / W) = 1) by (now apply any_share_total). assert (QT' : over (possible_rows (em_cats m) s) (fun row => M' row / W) = 1) by (rewrite <- EW, <- EC; apply any_share_total; auto; now rewrite EC).
  assert (PM : forall row, In row (possible_rows (em_cats m) s) -> 0 < M row) by (intros row Hrow; apply (any_marginal_positive m); auto; now apply (rows_legal _ s)). assert (PM' : forall row, In row (possible_rows (em_cats m) s) -> 0 < M' row) by (intros row Hrow; apply (any_marginal_positive m'); auto; rewrite EC; now apply (rows_legal _ s)).
  assert (V : forall b : list cell -> R, (forall row, In row (possible_rows (em_cats m) s) -> 0 < b row) -> rsum (mapi (fun _ row => - ln (b row)) data) = - (INR (length data) * (over (possible_rows (em_cats m) s) (fun row => M row / W * ln (b row / W)) + ln W))).
  { intros b Hb. rewrite (rsum_mapi []). transitivity (over data (fun row => - ln (b row))); [unfold over; rewrite rsum_nth, map_length; apply sumn_ext; intros r Hr; rewrite (nth_indep _ 0 (- ln (b []))) by (now rewrite map_length); now rewrite (map_nth (fun row => - ln (b row)))|].
    rewrite (over_times _ s data _ HS HF). replace (over (possible_rows (em_cats m) s) (fun row => M row / W * ln (b row / W)) + ln W) with (over (possible_rows (em_cats m) s) (fun row => M row / W * ln (b row / W)) + ln W * over (possible_rows (em_cats m) s) (fun row => M row / W)) by (rewrite QT; ring).
    rewrite <- over_scal, <- over_plus. rewrite <- Ropp_mult_distr_l_reverse, <- over_scal. apply over_ext. intros row Hrow. rewrite (HT row Hrow). specialize (Hb row Hrow). replace (ln (b row / W)) with (ln (b row) - ln W) by (unfold Rdiv; rewrite ln_mult, ln_Rinv by (auto using Rinv_0_lt_compat); ring). ring. }
  destruct (gibbs_list (possible_rows (em_cats m) s) (fun row => M row / W) (fun row => M' row / W)) as [G1 G2]; [intros; apply Rdiv_lt_0_compat; auto|intros; apply Rdiv_lt_0_compat; auto|exact QT|exact QT'|].
  rewrite (V M PM), (V M' PM'). split.
  - apply Ropp_le_contravar, Rmult_le_compat_l; lra.
  - split.
    + intros E row Hrow. apply (Rmult_eq_reg_r (/ W)); [|apply Rinv_neq_0_compat; lra]. refine (proj1 G2 _ row Hrow). assert (E2 : over (possible_rows (em_cats m) s) (fun row => M row / W * ln (M' row / W)) + ln W = over (possible_rows (em_cats m) s) (fun row => M row / W * ln (M row / W)) + ln W) by (apply (Rmult_eq_reg_l (INR (length data))); lra). lra.
    + intro E. do 3 f_equal. apply G2. intros row Hrow. now rewrite E.
Qed.
