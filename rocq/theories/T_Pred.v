(** Property C133: EAP scores as predictions of the latent variables. *)
From Verif Require Import Base BaseFacts RBase RFacts M_Data M_Logit M_Lik M_Est S_Logit S_Lik S_Est S_Eap S_True M_CV P_Est2 P_Est3 P_Est6 P_CV P_True1 P_Cons1 P_Fit P_Mono8 S_Pred P_Pred T_Est.
Import List.
Local Open Scope R_scope.

Lemma posterior_predicts m p grid w : library_model m p -> grid <> [] -> (forall t, 0 < w t) -> forall d,
  (forall seen, length seen = length (em_cats m) ->
     best_prediction grid w p (em_cats m) seen d (fun row => posterior_mean p grid w row d) /\ calibrated grid w p (em_cats m) seen d (fun row => posterior_mean p grid w row d)) /\
  helped_by_answers grid w p (em_cats m) d (fun row => posterior_mean p grid w row d).
Proof.
  intros Hm Hg Hw d.
  assert (Hp : forall t row, In t grid -> legal_row (em_cats m) row -> 0 < likelihood p t row) by (intros; now apply (library_likelihood m p)).
  assert (H1 : forall t i, In t grid -> (i < length (em_cats m))%nat -> sumn (nth i (em_cats m) O) (p t i) = 1) by (intros t i _ Hi; now apply (library_total m p)).
  assert (Hw' : forall t, In t grid -> 0 < w t) by auto.
  set (s := fun row => posterior_mean p grid w row d). split.
  - intros seen HL.
    assert (PY : forall f, squared_error grid w p (em_cats m) seen d f = squared_error grid w p (em_cats m) seen d s + on_population grid w p (em_cats m) seen (fun _ row => (s row - f row) ^ 2)) by exact (pythagoras grid w p (em_cats m) seen Hg Hw' HL Hp d).
    assert (N : forall f, 0 <= on_population grid w p (em_cats m) seen (fun _ row => (s row - f row) ^ 2)) by (intro f; apply population_nonneg; auto; intros; apply pow2_ge_0).
    split.
    + intro other. rewrite (PY other). split; [pose proof (N other); lra|]. intros Hle row Hr. pose proof (N other) as N0.
      assert (Z : on_population grid w p (em_cats m) seen (fun _ row => (s row - other row) ^ 2) = 0) by lra.
      pose proof (population_zero grid w p (em_cats m) seen Hg Hw' HL Hp (fun row => (s row - other row) ^ 2) (fun row => pow2_ge_0 _) Z row Hr) as E. cbv beta in E.
      assert (s row - other row = 0) by (apply Rsqr_0_uniq; unfold Rsqr; rewrite <- E; ring). lra.
    + assert (U : on_population grid w p (em_cats m) seen (fun _ row => s row) = on_population grid w p (em_cats m) seen (fun t _ => nth d t 0)) by exact (unbiased grid w p (em_cats m) seen Hg Hw' HL Hp d).
      split; [exact U|]. split; [exact (uncorrelated grid w p (em_cats m) seen Hg Hw' HL Hp d)|]. rewrite <- U. set (mu := on_population grid w p (em_cats m) seen (fun _ row => s row)).
      pose proof (PY (fun _ => mu)) as Y. unfold squared_error at 1 in Y. rewrite Y. ring.
  - intros seen more HL HM HS. exact (more_answers grid w p (em_cats m) seen more d Hg Hw' HL HM Hp H1 HS).
Qed.
Lemma nonempty_of (grid : list (list R)) g n : length grid = (g ^ n)%nat -> (0 < g)%nat -> grid <> [].
Proof. intros H Hg -> . cbn [length] in H. symmetry in H. apply Nat.pow_eq_0_iff in H. lia. Qed.
(** EAP scores of a fitted model: among all functions of the answers the best predictions of the latent variables, in a
    population which is distributed over the grid in proportion to the normal density. *)
Theorem C133_fitted : forall mvn m p a scores logpdf points,
  library_model m p -> (em_lv m <= 4)%nat -> al_training a = Some (Some scores) -> scores <> [] ->
  mvn (covariance (em_lv m) scores) = Ok logpdf ->
  let g := match points with Some g => g | None => usual_points (em_lv m) end in (0 < g)%nat ->
  let density := fun t => exp (logpdf t) in
  exists grid score, eap_grid (em_lv m) g scores grid /\
    (forall data, data <> [] -> legal_data (em_cats m) data -> eap_theta_scores mvn m a points (Wide (em_items m) data) = Ok (map (fun row => map (fun d => Some (Fin (score d row))) (seq 0 (em_lv m))) data)) /\
    forall d, (d < em_lv m)%nat ->
      (forall seen, length seen = length (em_cats m) -> best_prediction grid density p (em_cats m) seen d (score d) /\ calibrated grid density p (em_cats m) seen d (score d)) /\
      helped_by_answers grid density p (em_cats m) d (score d).
Proof.
  intros mvn m p a scores logpdf points Hm Hlv Ha Hs Hmvn g Hg density.
  destruct (theta_grid (em_lv m) scores g) as [grid|e] eqn:Eg; [|destruct scores; [congruence|discriminate]].
  pose proof (theta_grid_is _ _ _ _ Hs Eg) as HG. exists grid, (fun d row => posterior_mean p grid density row d). split; [exact HG|]. split.
  - intros data Hne Hd. destruct (posterior_mean_grid mvn m p a scores logpdf points data Hm Hlv Ha Hs Hmvn Hg Hne Hd) as (grid' & Eg' & _ & E & _).
    assert (grid' = grid) by (change (theta_grid (em_lv m) scores g = Ok grid') in Eg'; congruence). subst grid'. exact E.
  - intros d _. apply posterior_predicts; [exact Hm| |intro; apply exp_pos]. eapply nonempty_of; [apply HG|exact Hg].
Qed.
Print Assumptions C133_fitted.
(** The same of a model that was never fitted, with its grid from -3 to 3. *)
Theorem C133_unfitted : forall mvn m p logpdf points,
  library_model m p -> (em_lv m <= 4)%nat -> mvn (map (map Some) (identity (em_lv m))) = Ok logpdf ->
  let g := match points with Some g => g | None => usual_points (em_lv m) end in (0 < g)%nat ->
  let density := fun t => exp (logpdf t) in
  exists grid score,
    (forall t, In t grid <-> length t = em_lv m /\ forall d, (d < em_lv m)%nat -> exists j, (j < g)%nat /\ nth d t 0 = -3 + INR j * (6 / INR (g - 1))) /\
    length grid = (g ^ em_lv m)%nat /\
    (forall data, data <> [] -> legal_data (em_cats m) data -> eap_theta_scores mvn m no_algorithm points (Wide (em_items m) data) = Ok (map (fun row => map (fun d => Some (Fin (score d row))) (seq 0 (em_lv m))) data)) /\
    forall d, (d < em_lv m)%nat ->
      (forall seen, length seen = length (em_cats m) -> best_prediction grid density p (em_cats m) seen d (score d) /\ calibrated grid density p (em_cats m) seen d (score d)) /\
      helped_by_answers grid density p (em_cats m) d (score d).
Proof.
  intros mvn m p logpdf points Hm Hlv Hmvn g Hg density. set (grid := M_CV.product (repeat (linspace (-3) 3 g) (em_lv m))).
  assert (LG : length grid = (g ^ em_lv m)%nat).
  { unfold grid. rewrite product_length, map_repeat. unfold linspace. rewrite map_length, seq_length.
    assert (G : forall a k, fold_right Nat.mul 1%nat (repeat a k) = (a ^ k)%nat) by (induction k as [|k IH]; [reflexivity|]; cbn [repeat fold_right Nat.pow]; now rewrite IH). apply G. }
  exists grid, (fun d row => posterior_mean p grid density row d). split; [apply wide_grid|]. split; [exact LG|]. split.
  - intros data Hne Hd. destruct (unfitted_grid mvn m p logpdf points data Hm Hlv Hmvn Hg Hne Hd) as (grid' & Eg & E). subst grid'. exact E.
  - intros d _. apply posterior_predicts; [exact Hm| |intro; apply exp_pos]. eapply nonempty_of; [exact LG|exact Hg].
Qed.
Print Assumptions C133_unfitted.

(** A decreasing density on equally spaced points has its mean below the middle. *)
Lemma below_middle g lo hi (w : R -> R) : (2 <= g)%nat -> lo < hi -> (forall x y, lo <= x -> x < y -> w y < w x) ->
  over (linspace lo hi g) (fun x => (x - (lo + hi) / 2) * w x) < 0.
Proof.
  intros Hg Hlh Hw. unfold linspace. rewrite over_map, over_seq. set (x := fun i => lo + INR i * ((hi - lo) / INR (g - 1))). set (mid := (lo + hi) / 2). set (f := fun i => (x i - mid) * w (x i)).
  assert (G : 0 < INR (g - 1)) by (apply lt_0_INR; lia). assert (ST : 0 < (hi - lo) / INR (g - 1)) by (apply Rdiv_lt_0_compat; lra).
  assert (SY : forall i, (i < g)%nat -> x (g - 1 - i)%nat - mid = - (x i - mid)).
  { intros i Hi. unfold x, mid. rewrite minus_INR by lia. field. lra. }
  assert (MO : forall i j, (i < j)%nat -> x i < x j) by (intros i j Hij; unfold x; apply Rplus_lt_compat_l, Rmult_lt_compat_r; [exact ST|now apply lt_INR]).
  assert (LO : forall i, lo <= x i) by (intro i; unfold x; pose proof (pos_INR i); assert (0 <= INR i * ((hi - lo) / INR (g - 1))) by (apply Rmult_le_pos; lra); lra).
  change (sumn g f < 0). enough (2 * sumn g f < 0) by lra. replace (2 * sumn g f) with (sumn g f + sumn g (fun i => f (g - 1 - i)%nat)) by (rewrite <- sumn_rev; ring).
  rewrite <- sumn_plus. rewrite (sumn_ext g _ (fun i => - ((x i - mid) * (w (x (g - 1 - i)%nat) - w (x i))))) by (intros i Hi; unfold f; rewrite (SY i Hi); ring).
  assert (P : forall i, (i < g)%nat -> 0 <= (x i - mid) * (w (x (g - 1 - i)%nat) - w (x i))).
  { intros i Hi. pose proof (SY i Hi). destruct (lt_eq_lt_dec i (g - 1 - i)) as [[C|C]|C].
    - pose proof (MO _ _ C). pose proof (Hw _ _ (LO i) H0). replace ((x i - mid) * (w (x (g - 1 - i)%nat) - w (x i))) with ((mid - x i) * (w (x i) - w (x (g - 1 - i)%nat))) by ring. apply Rmult_le_pos; lra.
    - rewrite <- C, (Rminus_diag_eq (w (x i)) _ eq_refl). lra.
    - pose proof (MO _ _ C). pose proof (Hw _ _ (LO (g - 1 - i)%nat) H0). apply Rmult_le_pos; lra. }
  assert (Q : 0 < sumn g (fun i => (x i - mid) * (w (x (g - 1 - i)%nat) - w (x i)))).
  { apply (RFacts.sumn_pos_one g _ 0%nat P); [lia|]. pose proof (SY 0%nat ltac:(lia)). pose proof (MO 0%nat (g - 1 - 0)%nat ltac:(lia)). pose proof (Hw _ _ (LO 0%nat) H0).
    replace ((x 0%nat - mid) * (w (x (g - 1 - 0)%nat) - w (x 0%nat))) with ((mid - x 0%nat) * (w (x 0%nat) - w (x (g - 1 - 0)%nat))) by ring. apply Rmult_lt_0_compat; lra. }
  rewrite (sumn_ext g _ (fun i => -1 * ((x i - mid) * (w (x (g - 1 - i)%nat) - w (x i))))) by (intros; ring). rewrite sumn_scal. lra.
Qed.
Lemma unanswered p t row : (forall i, answer (nth i row None) = None) -> likelihood p t row = 1.
Proof.
  intro H. unfold likelihood. revert p H. induction row as [|c row IH]; intros p H; [reflexivity|]. cbn [mapi rprod]. pose proof (H 0%nat) as H0. cbn [nth] in H0.
  change (likelihood p t (c :: row) = 1). rewrite (row_product_cons (p t) c row : likelihood p t (c :: row) = _). rewrite H0.
  enough (row_product (fun i => p t (S i)) row = 1) as -> by ring. apply (IH (fun t i => p t (S i))). intro i. exact (H (S i)).
Qed.
(** Finding: the density has mean zero whatever the mean of the training scores.  With all training scores above a
    quarter of their range, a respondent without any answer scores below the middle of the training scores. *)
Theorem C133_centre_refuted : forall mvn m p a scores logpdf points row c v lo hi,
  library_model m p -> em_lv m = 1%nat -> al_training a = Some (Some scores) -> mvn (covariance 1 scores) = Ok logpdf ->
  (forall x, logpdf [x] = c - x ^ 2 / (2 * v)) -> 0 < v ->
  match points with Some g => (2 <= g)%nat | None => True end ->
  ranges scores 0 lo hi -> lo < hi -> (hi - lo) / 4 <= lo -> (lo + hi) / 2 <= rmean (map (fun t => nth 0 t 0) scores) ->
  legal_row (em_cats m) row -> (forall i, answer (nth i row None) = None) ->
  exists x, eap_theta_scores mvn m a points (Wide (em_items m) [row]) = Ok [[Some (Fin x)]] /\ x < rmean (map (fun t => nth 0 t 0) scores).
Proof.
  intros mvn m p a scores logpdf points row c v lo hi Hm E1 Ha Hmvn HN Hv Hg HRG Hlh Hlo Hmean HL HA.
  assert (Hs : scores <> []) by (destruct HRG as (_ & (t & Ht & _) & _); destruct scores; [destruct Ht|discriminate]).
  assert (G2 : (2 <= match points with Some g => g | None => usual_points (em_lv m) end)%nat) by (destruct points; [exact Hg|rewrite E1; cbn; lia]).
  set (g := match points with Some g => g | None => usual_points (em_lv m) end) in *.
  destruct (posterior_mean_grid mvn m p a scores logpdf points [row] Hm ltac:(lia) Ha Hs ltac:(now rewrite E1) ltac:(change (0 < g)%nat; lia) ltac:(discriminate) ltac:(constructor; [exact HL|constructor])) as (grid & Eg & _ & E & _).
  change (theta_grid (em_lv m) scores g = Ok grid) in Eg. set (from := lo - (hi - lo) * / 4). set (upto := hi + (hi - lo) * / 4).
  assert (EG : grid = map (fun x => [x]) (linspace from upto g)).
  { rewrite E1 in Eg. unfold theta_grid in Eg. destruct scores as [|s0 scores']; [congruence|]. injection Eg as <-. destruct (ranges_is _ _ _ _ HRG) as [E2 E3]. transitivity (product [linspace from upto g]); [unfold from, upto; rewrite E2, E3; reflexivity|]. generalize (linspace from upto g). clear. intro l. induction l as [|y l IH]; [reflexivity|]. cbn in *. now f_equal. }
  eexists. split; [rewrite E, E1; reflexivity|].
  set (w := fun x => exp (logpdf [x])).
  assert (S1 : rsum (map (fun t => nth 0 t 0 * (exp (logpdf t) * likelihood p t row)) grid) = over (linspace from upto g) (fun x => x * w x)).
  { rewrite EG, map_map. unfold over. f_equal. apply map_ext. intro x. rewrite (unanswered p [x] row HA). cbn [nth]. unfold w. ring. }
  assert (S2 : rsum (map (fun t => exp (logpdf t) * likelihood p t row) grid) = over (linspace from upto g) w).
  { rewrite EG, map_map. unfold over. f_equal. apply map_ext. intro x. rewrite (unanswered p [x] row HA). unfold w. ring. }
  rewrite S1, S2. assert (FU : from < upto) by (unfold from, upto; lra).
  assert (B := below_middle g from upto w G2 FU). 
  assert (W : over (linspace from upto g) (fun x => (x - (from + upto) / 2) * w x) < 0).
  { apply B. intros x y Hx Hxy. unfold w. apply exp_increasing. rewrite !HN. assert (0 <= x) by (unfold from in Hx; lra). assert (x ^ 2 < y ^ 2) by nra. assert (0 < / (2 * v)) by (apply Rinv_0_lt_compat; lra). unfold Rdiv. nra. }
  assert (P : 0 < over (linspace from upto g) w). { apply over_pos; [|intros; apply exp_pos]. unfold linspace. destruct g; [lia|]. discriminate. }
  rewrite (over_ext _ _ (fun x => x * w x - (from + upto) / 2 * w x)) in W by (intros; ring). rewrite over_minus, over_scal in W.
  apply Rlt_le_trans with ((lo + hi) / 2); [|exact Hmean]. replace ((lo + hi) / 2) with ((from + upto) / 2) by (unfold from, upto; field). apply (Rmult_lt_reg_r (over (linspace from upto g) w)); [exact P|].
  unfold Rdiv at 1. rewrite Rmult_assoc, Rinv_l by lra. lra.
Qed.
Print Assumptions C133_centre_refuted.

(** Two items of the one parameter model, training scores 9, 10 and 11: the score of somebody who answered nothing is below
    10, and the squared error with one answer is at most that without. *)
Definition far_mvn (_ : list (list (option R))) : result (list R -> R) := Ok (fun t => 0 - nth 0 t 0 ^ 2 / (2 * 1)).
Example C133_nonvacuous :
  (exists x, eap_theta_scores far_mvn ex_model (jml_fitted [[9]; [10]; [11]]) None (Wide 2 [[None; None]]) = Ok [[Some (Fin x)]] /\ x < 10) /\
  exists grid score, eap_theta_scores far_mvn ex_model (jml_fitted [[9]; [10]; [11]]) (Some 5%nat) (Wide 2 ex_resp) = Ok (map (fun row => [Some (Fin (score row))]) ex_resp) /\
    length grid = 5%nat /\ best_prediction grid (fun t => exp (0 - nth 0 t 0 ^ 2 / (2 * 1))) (opl_p ex_opl) [2; 2]%nat [true; false] 0 score /\
    squared_error grid (fun t => exp (0 - nth 0 t 0 ^ 2 / (2 * 1))) (opl_p ex_opl) [2; 2]%nat [true; false] 0 score <=
    squared_error grid (fun t => exp (0 - nth 0 t 0 ^ 2 / (2 * 1))) (opl_p ex_opl) [2; 2]%nat [false; false] 0 score.
Proof.
  split.
  - assert (HR : ranges [[9]; [10]; [11]] 0 9 11).
    { split; [|split; [exists [9]|exists [11]]; (split; [cbn; auto|reflexivity])]. intros t [<-|[<-|[<-|[]]]]; cbn [nth]; lra. }
    destruct (C133_centre_refuted far_mvn ex_model (opl_p ex_opl) (jml_fitted [[9]; [10]; [11]]) [[9]; [10]; [11]] (fun t => 0 - nth 0 t 0 ^ 2 / (2 * 1)) None [None; None] 0 1 9 11
      ex_library eq_refl eq_refl eq_refl (fun x => eq_refl) ltac:(lra) I HR ltac:(lra) ltac:(lra)) as (x & E & H).
    + unfold rmean. cbn. lra.
    + split; [reflexivity|]. intros [|[|[|i]]] c Hc; cbn in Hc; try discriminate; injection Hc as <-; now left.
    + intros [|[|[|i]]]; reflexivity.
    + exists x. split; [exact E|]. unfold rmean in H. cbn in H. lra.
  - destruct (C133_fitted far_mvn ex_model (opl_p ex_opl) (jml_fitted [[9]; [10]; [11]]) [[9]; [10]; [11]] (fun t => 0 - nth 0 t 0 ^ 2 / (2 * 1)) (Some 5%nat) ex_library ltac:(cbn; lia) eq_refl ltac:(discriminate) eq_refl ltac:(cbn; lia)) as (grid & score & [HG _] & E & H).
    exists grid, (score 0%nat). split; [exact (E ex_resp ltac:(discriminate) ex_resp_legal)|]. split; [exact HG|]. destruct (H 0%nat ltac:(cbn; lia)) as [H1 H2].
    split; [apply (H1 [true; false] eq_refl)|]. apply H2; [reflexivity|reflexivity|]. intros [|[|[|i]]]; cbn; congruence.
Qed.
