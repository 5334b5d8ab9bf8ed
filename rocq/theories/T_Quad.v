(** Property theorems C113: the integration rules of marginal maximum likelihood. *)
From Verif Require Import Base BaseFacts RBase RFacts M_CV P_Lik2 M_Data M_Logit M_Lik M_Est M_Mix M_Quad P_Mix1 P_Mix5 P_Est1 P_Est2 P_Est3 P_Max6 P_Max1 P_Quad1 P_Quad2 P_Quad3 S_Mix T_Est S_Est S_Quad.
Import List.
Local Open Scope R_scope.

(** The moments named in the statements: integration by parts, the boundary term vanishing. *)
Theorem C113_normal_moments : forall k,
  (forall x, derivable_pt_lim (fun x => - (x ^ S k * exp (- (x ^ 2 / 2)))) x (x ^ S (S k) * exp (- (x ^ 2 / 2)) - INR (S k) * (x ^ k * exp (- (x ^ 2 / 2))))) /\
  (forall eps, 0 < eps -> exists M, forall x, M < Rabs x -> Rabs (x ^ S k * exp (- (x ^ 2 / 2))) < eps) /\
  normal_moment (S (S k)) = INR (S k) * normal_moment k.
Proof. intro k. split; [apply parts|]. split; [|reflexivity]. intros eps He. apply tail_vanishes; [lia|exact He]. Qed.
Print Assumptions C113_normal_moments.

(** Exactness. *)
Theorem C113_exact : forall D nodes ws mean cov rule,
  exact_to D nodes ws -> symmetric_matrix (length mean) (at_ cov) -> gauss_hermite nodes ws mean cov = Ok rule ->
  length (fst rule) = (length nodes ^ length mean)%nat /\
  exists L, factor (length mean) L (at_ cov) /\
  forall E f, standard_normal (length mean) D E -> polynomial (length mean) D f -> integral rule f = E (fun z => f (affine (length mean) mean L z)).
Proof.
  intros D nodes ws mean cov rule HX HS H. split.
  - unfold gauss_hermite in H. destruct (_ =? _)%nat; [|discriminate]. destruct (chol _ _); [|discriminate]. destruct (_ =? _)%nat; [|discriminate]. injection H as <-. cbn [fst]. rewrite map_length. generalize (length mean) as d. induction d as [|d IH]; [reflexivity|]. cbn [repeat product Nat.pow].
    rewrite <- IH. clear. induction nodes as [|a nodes IHn]; [reflexivity|]. cbn [flat_map length]. rewrite app_length, map_length.
    assert (G : forall (l : list R) P, length (flat_map (fun x => map (cons x) P) l) = (length l * length P)%nat) by (induction l as [|b l IHl]; intro P; [reflexivity|]; cbn [flat_map length Nat.mul]; rewrite app_length, map_length, IHl; reflexivity).
    rewrite G. reflexivity.
  - destruct (gauss_hermite_ok _ _ _ _ _ H) as (_ & _ & L & HC & HI). exists L. destruct (chol_spec _ _ L HS HC) as (_ & _ & HF). split; [exact HF|]. intros E f HE HP. rewrite HI.
    destruct (polynomial_affine (length mean) D f mean L HP) as (g & Pg & Eg). transitivity (E g); [|apply (sn_ext _ _ _ HE); intros; apply Eg]. rewrite <- (grid_exact (length mean) D nodes ws E g HX HE Pg). f_equal. apply integral_ext. intros y _. now rewrite Eg.
Qed.
Print Assumptions C113_exact.

(** The rule carries the mean and the covariance it was asked for. *)
Theorem C113_moments : forall D nodes ws mean cov rule,
  exact_to D nodes ws -> (2 <= D)%nat -> symmetric_matrix (length mean) (at_ cov) -> gauss_hermite nodes ws mean cov = Ok rule ->
  integral rule (fun _ => 1) = 1 /\
  (forall i, (i < length mean)%nat -> integral rule (fun y => nth i y 0) = nth i mean 0) /\
  forall i j, (i < length mean)%nat -> (j < length mean)%nat -> integral rule (fun y => (nth i y 0 - nth i mean 0) * (nth j y 0 - nth j mean 0)) = at_ cov i j.
Proof.
  intros D nodes ws mean cov rule HX HD HS H. destruct (gauss_hermite_ok _ _ _ _ _ H) as (_ & _ & L & HC & HI). destruct (chol_spec _ _ L HS HC) as (_ & _ & HF).
  pose proof (rule_standard_normal (length mean) D nodes ws HX) as HE. set (E := fun f => _) in HE. assert (HR : forall f, integral rule f = E (fun z => f (affine (length mean) mean L z))) by (intro f; rewrite HI; reflexivity).
  split; [rewrite HR; exact (sn_const _ _ E HE 1)|]. split.
  - intros i Hi. rewrite HR. apply (affine_mean _ _ E HE); [lia|exact Hi].
  - intros i j Hi Hj. rewrite HR. now apply (affine_cov _ _ E HE).
Qed.
Print Assumptions C113_moments.

(** Which covariance matrices are accepted. *)
Theorem C113_accepted : forall nodes ws mean cov,
  (length (w_rows cov) = length mean -> w_cols cov = length mean -> symmetric_matrix (length mean) (at_ cov) ->
    (positive_definite (length mean) (at_ cov) <-> exists rule, gauss_hermite nodes ws mean cov = Ok rule)) /\
  (forall rule, gauss_hermite nodes ws mean cov = Ok rule -> length (w_rows cov) = length mean /\ w_cols cov = length mean) /\
  forall e, gauss_hermite nodes ws mean cov = Err e -> e = RuntimeError.
Proof.
  intros nodes ws mean cov. split; [|split].
  - intros E1 E2 HS. split.
    + intro HP. destruct (definite_chol _ _ HS HP) as (L & HL). unfold gauss_hermite. rewrite E1, E2, Nat.eqb_refl, HL. eauto.
    + intros (rule & H). destruct (gauss_hermite_ok _ _ _ _ _ H) as (_ & _ & L & HC & _). now apply (chol_definite _ _ L).
  - intros rule H. destruct (gauss_hermite_ok _ _ _ _ _ H) as (E1 & E2 & _). auto.
  - intros e. unfold gauss_hermite. destruct (_ =? _)%nat; [|congruence]. destruct (chol _ _); [|congruence]. destruct (_ =? _)%nat; congruence.
Qed.
Print Assumptions C113_accepted.

Definition ex_cov : wide R := Wide 2 [[1; 1 / 5]; [1 / 5; 1]].
Lemma ex_cov_symmetric : symmetric_matrix 2 (at_ ex_cov).
Proof. intros i j Hi Hj. destruct i as [|[|i]]; [| |lia]; (destruct j as [|[|j]]; [| |lia]); reflexivity. Qed.
Lemma ex_cov_definite : positive_definite 2 (at_ ex_cov).
Proof.
  intros v (i & Hi & Vi). cbn [sumn]. unfold at_, ex_cov. cbn [w_rows nth]. set (a := v 0%nat) in *. set (b := v 1%nat) in *.
  match goal with |- 0 < ?g => replace g with ((a + b / 5) ^ 2 + 24 / 25 * b ^ 2) by field end.
  destruct (Req_dec b 0) as [Z|Z].
  - assert (a <> 0) by (destruct i as [|[|i]]; [exact Vi|exfalso; exact (Vi Z)|lia]). rewrite Z. replace ((a + 0 / 5) ^ 2 + 24 / 25 * 0 ^ 2) with (a * a) by field. apply Rsqr_pos_lt in H. exact H.
  - pose proof (Rsqr_pos_lt b Z) as Q. unfold Rsqr in Q. pose proof (pow2_ge_0 (a + b / 5)). nra.
Qed.
Example C113_moments_nonvacuous : exists rule, gauss_hermite three_nodes three_weights [1; -1] ex_cov = Ok rule /\ length (fst rule) = 9%nat /\
  integral rule (fun y => nth 0 y 0) = 1 /\ integral rule (fun y => (nth 0 y 0 - 1) * (nth 1 y 0 - -1)) = 1 / 5.
Proof.
  destruct (C113_accepted three_nodes three_weights [1; -1] ex_cov) as ((A & _) & _ & _); [reflexivity|reflexivity|exact ex_cov_symmetric|]. destruct (A ex_cov_definite) as (rule & H). exists rule. split; [exact H|].
  split; [exact (proj1 (C113_exact 5 _ _ [1; -1] ex_cov _ three_exact ex_cov_symmetric H))|]. destruct (C113_moments 5 _ _ [1; -1] ex_cov _ three_exact ltac:(lia) ex_cov_symmetric H) as (_ & M & C).
  split; [exact (M 0%nat ltac:(cbn; lia))|exact (C 0%nat 1%nat ltac:(cbn; lia) ltac:(cbn; lia))].
Qed.
(** The fourth moment of a standard normal variable. *)
Example C113_exact_nonvacuous : exists rule, gauss_hermite three_nodes three_weights [0] (Wide 1 [[1]]) = Ok rule /\ integral rule (fun y => nth 0 y 0 * (nth 0 y 0 * (nth 0 y 0 * nth 0 y 0))) = 3.
Proof.
  assert (S1 : symmetric_matrix 1 (at_ (Wide 1 [[1]]))) by (intros i j Hi Hj; replace i with 0%nat by lia; replace j with 0%nat by lia; reflexivity).
  assert (P1 : positive_definite 1 (at_ (Wide 1 [[1]]))). { intros v (i & Hi & Vi). replace i with 0%nat in Vi by lia. cbn. apply Rsqr_pos_lt in Vi. unfold Rsqr in Vi. lra. }
  destruct (C113_accepted three_nodes three_weights [0] (Wide 1 [[1]])) as ((A & _) & _ & _); [reflexivity|reflexivity|exact S1|]. destruct (A P1) as (rule & H). exists rule. split; [exact H|].
  destruct (C113_exact 5 _ _ [0] (Wide 1 [[1]]) _ three_exact S1 H) as (_ & L & HL & HE). specialize (HE _ (fun y => nth 0 y 0 * (nth 0 y 0 * (nth 0 y 0 * nth 0 y 0))) (rule_standard_normal 1 5 _ _ three_exact)). cbn [length] in HE.
  assert (HP : polynomial 1 5 (fun y => nth 0 y 0 * (nth 0 y 0 * (nth 0 y 0 * nth 0 y 0)))). { apply (polynomial_weaken 1 (1 + (1 + (1 + 1)))); [|lia]. do 3 (apply poly_mult; [apply poly_coord; lia|]). apply poly_coord; lia. }
  rewrite (HE HP). specialize (HL 0%nat 0%nat ltac:(cbn; lia) ltac:(cbn; lia)). cbn in HL. assert (Q : L 0%nat 0%nat * L 0%nat 0%nat = 1) by (unfold at_ in HL; cbn in HL; lra). pose proof (rule_standard_normal 1 5 _ _ three_exact) as SN. set (E := fun f => _) in SN |- *.
  change (E (fun z => nth 0 (affine 1 [0] L z) 0 * (nth 0 (affine 1 [0] L z) 0 * (nth 0 (affine 1 [0] L z) 0 * nth 0 (affine 1 [0] L z) 0))) = 3).
  rewrite (sn_ext _ _ E SN _ (power [4%nat])).
  - rewrite (sn_power _ _ E SN [4%nat]) by (cbn; lia). cbn. ring.
  - intros z Hz. destruct z as [|x [|y z]]; [discriminate| |discriminate]. unfold affine, power. cbn. set (l := L 0%nat 0%nat) in *. transitivity ((l * l) * (l * l) * (x * x * x * x)); [ring|]. rewrite Q. ring.
Qed.

(** A matrix that is not symmetric: only its lower triangle is read, where the default rule refuses it. *)
Theorem C113_asymmetric_refuted :
  (forall nodes ws mean c c', length (w_rows c) = length (w_rows c') -> w_cols c = w_cols c' -> (forall i j, (j <= i < w_cols c)%nat -> at_ c i j = at_ c' i j) ->
    gauss_hermite nodes ws mean c = gauss_hermite nodes ws mean c') /\
  (let c := Wide 2 [[1; 9 / 10]; [1 / 5; 1]] in
   (exists pw, mml_rule (fun _ => (three_nodes, three_weights)) true 2 (Some 3%nat) (Some c) = Ok pw /\
     forall ws, snd pw = map (fun w => flog (Some w)) ws -> Forall (fun w => 0 < w) ws -> integral (fst pw, ws) (fun y => nth 0 y 0 * nth 1 y 0) = 1 / 5) /\
   forall hermgauss n, mml_rule hermgauss false 2 n (Some c) = Err ValueError).
Proof.
  assert (G : forall nodes ws mean c c', length (w_rows c) = length (w_rows c') -> w_cols c = w_cols c' -> (forall i j, (j <= i < w_cols c)%nat -> at_ c i j = at_ c' i j) ->
    gauss_hermite nodes ws mean c = gauss_hermite nodes ws mean c').
  { intros nodes ws mean c c' E1 E2 H. unfold gauss_hermite. rewrite <- E1, <- E2. destruct (_ =? _)%nat; [|reflexivity]. pose proof (chol_lower (w_cols c) (at_ c) (at_ c') H (w_cols c) (le_n _)) as Q. destruct (chol (w_cols c) (at_ c)) as [L|]; destruct (chol (w_cols c) (at_ c')) as [L'|]; try tauto.
    destruct (Nat.eqb_spec (w_cols c) (length mean)) as [E|]; [|reflexivity]. do 2 f_equal. apply map_ext. intro x. apply map_ext_in. intros i Hi. apply in_seq in Hi. f_equal. f_equal. apply sumn_ext. intros k Hk. rewrite Q by lia. reflexivity. }
  split; [exact G|]. intro c. split.
  - destruct (C113_accepted three_nodes three_weights [0; 0] ex_cov) as ((A & _) & _ & _); [reflexivity|reflexivity|exact ex_cov_symmetric|]. destruct (A ex_cov_definite) as (rule & H).
    assert (Hc : gauss_hermite three_nodes three_weights [0; 0] c = Ok rule). { rewrite <- H. apply G; [reflexivity|reflexivity|]. intros i j Hij. cbn in Hij. destruct i as [|[|i]]; [| |lia]; (destruct j as [|[|j]]; [| |lia]); try reflexivity. lia. }
    exists (fst rule, map (fun w => flog (Some w)) (snd rule)). split; [transitivity (bind (gauss_hermite three_nodes three_weights [0; 0] c) (fun pw => Ok (fst pw, map (fun w => flog (Some w)) (snd pw)))); [reflexivity|rewrite Hc; reflexivity]|].
    intros ws E HW. cbn [fst snd] in E |- *. assert (PW : Forall (fun w => 0 < w) (snd rule)).
    { refine (proj1 (proj2 (proj2 (gauss_hermite_shape _ _ _ _ _ H eq_refl _ _)))); [discriminate|]. pose proof (sqrt_lt_R0 PI PI_RGT_0). unfold three_weights. repeat constructor; lra. }
    assert (EW : ws = snd rule). { clear - E HW PW. revert ws E HW. induction PW as [|w l Hw _ IH]; intros [|v ws] E HW; try discriminate; [reflexivity|]. inversion HW as [|? ? H1 H2]; subst. cbn [map] in E. rewrite !flog_pos in E by assumption. injection E as E1 E2. apply ln_inv in E1; [|assumption|assumption]. subst v. f_equal. now apply IH. }
    subst ws. destruct rule as [ps ws]. cbn [fst snd]. destruct (C113_moments 5 _ _ [0; 0] ex_cov _ three_exact ltac:(lia) ex_cov_symmetric H) as (_ & _ & M).
    transitivity (at_ ex_cov 0 1); [|reflexivity]. rewrite <- (M 0%nat 1%nat ltac:(cbn; lia) ltac:(cbn; lia)). apply integral_ext. intros y _. cbn. ring.
  - intros hermgauss n. unfold mml_rule. assert (EP : exists q, mml_points 2 n = Ok q) by (destruct n; cbn; eauto). destruct EP as (q & ->).
    change (bind (mvn 2 (repeat (Some (Fin 0)) 2) (map (map (fun x => Some (Fin x))) [[1; 9 / 10]; [1 / 5; 1]])) (fun logpdf => Ok (mml_quasi_mc q 2 logpdf)) = Err ValueError). unfold mvn. assert (ES : symmetric 2 (entry (map (map (fun x => Some (Fin x))) [[1; 9 / 10]; [1 / 5; 1]])) = false).
    { unfold symmetric. cbn. destruct (Req_EM_T 1 1); [|congruence]. destruct (Req_EM_T (9 / 10) (1 / 5)) as [E|]; [exfalso; lra|]. cbn. reflexivity. }
    rewrite ES, Bool.andb_false_r. reflexivity.
Qed.
Print Assumptions C113_asymmetric_refuted.

(** One point per dimension: the whole weight is at the mean. *)
Theorem C113_single_point : forall x w mean cov rule,
  exact_to 1 [x] [w] -> gauss_hermite [x] [w] mean cov = Ok rule ->
  rule = ([mean], [1]) /\ forall i j, integral rule (fun y => (nth i y 0 - nth i mean 0) * (nth j y 0 - nth j mean 0)) = 0.
Proof.
  intros x w mean cov rule (_ & HX) H. pose proof (HX 0%nat ltac:(lia)) as H0. pose proof (HX 1%nat ltac:(lia)) as H1. unfold rsum in H0, H1. cbn in H0, H1. pose proof sqrt2_pos as S2. pose proof (sqrt_lt_R0 PI PI_RGT_0) as SP.
  assert (Ew : w = sqrt PI) by lra. assert (Ex : x = 0). { assert (Q : w * (sqrt 2 * x) = 0) by lra. apply Rmult_integral in Q as [Q|Q]; [lra|]. apply Rmult_integral in Q as [Q|Q]; lra. }
  assert (ER : rule = ([mean], [1])).
  { unfold gauss_hermite in H. destruct (_ =? _)%nat; [|discriminate]. destruct (chol _ _) as [L|]; [|discriminate]. destruct (_ =? _)%nat; [|discriminate]. assert (P1 : forall (a : R) d, product (repeat [a] d) = [repeat a d]) by (intros a; induction d as [|d IH]; [reflexivity|]; cbn [repeat product flat_map]; rewrite IH; reflexivity).
    rewrite !P1 in H. cbn [map] in H. injection H as <-. subst x. f_equal.
    - f_equal. apply nth_error_ext. intro i. destruct (Nat.lt_ge_cases i (length mean)) as [Hi|Hi].
      + rewrite nth_error_map_seq by exact Hi. cbn [Nat.add]. rewrite (nth_error_nth_lt mean i 0 Hi). f_equal. rewrite (sumn_ext _ _ (fun _ => 0)), sumn_0; [ring|]. intros k Hk. rewrite nth_repeat. ring.
      + transitivity (@None R); [apply nth_error_None; now rewrite map_length, seq_length|symmetry; now apply nth_error_None].
    - f_equal. subst w. assert (EP : fold_right Rmult 1 (repeat (sqrt PI) (length mean)) = Rpower PI (1 / 2 * INR (length mean))).
      { generalize (length mean) as d. induction d as [|d IH]; [cbn; rewrite Rmult_0_r, Rpower_O; [reflexivity|exact PI_RGT_0]|]. cbn [repeat fold_right]. rewrite IH, S_INR, Rmult_plus_distr_l, Rmult_1_r, Rpower_plus. rewrite <- (Rpower_sqrt PI PI_RGT_0). replace (/ 2) with (1 / 2) by field. ring. }
      rewrite EP, <- Rpower_plus. replace (1 / 2 * INR (length mean) + - (1 / 2) * INR (length mean)) with 0 by ring. apply Rpower_O. exact PI_RGT_0. }
  split; [exact ER|]. intros i j. rewrite ER. unfold integral. cbn. ring.
Qed.
Print Assumptions C113_single_point.
Example C113_single_point_nonvacuous : exists rule, gauss_hermite one_node one_weight [1; -1] ex_cov = Ok rule /\ rule = ([[1; -1]], [1]).
Proof.
  destruct (C113_accepted one_node one_weight [1; -1] ex_cov) as ((A & _) & _ & _); [reflexivity|reflexivity|exact ex_cov_symmetric|]. destruct (A ex_cov_definite) as (rule & H). exists rule. split; [exact H|]. exact (proj1 (C113_single_point _ _ [1; -1] ex_cov _ one_exact H)).
Qed.

(** The loss minimised with a Gauss-Hermite rule: minus the log of a mean of likelihoods over respondents, so never negative, and
    zero when nobody answered. *)
Theorem C113_loss : forall m p hermgauss requested n cov points lw data,
  library_model m p -> mml_points (em_lv m) requested = Ok n ->
  exact_to 0 (fst (hermgauss n)) (snd (hermgauss n)) -> Forall (fun w => 0 < w) (snd (hermgauss n)) ->
  mml_rule hermgauss true (em_lv m) requested cov = Ok (points, lw) -> legal_data (em_cats m) data ->
  exists ws, integral (points, ws) (fun _ => 1) = 1 /\ Forall (fun w => 0 < w) ws /\ length ws = length points /\
    let v := - rsum (map (fun row => ln (integral (points, ws) (fun t => likelihood p t row))) data) in
    mml_loss m points lw (Wide (em_items m) data) = Ok (Some (Fin v)) /\ 0 <= v /\ (Forall (Forall (fun c => answer c = None)) data -> v = 0).
Proof.
  intros m p hermgauss requested n cov points lw data Hm Hn HX HW HR Hd. unfold mml_rule in HR. rewrite Hn in HR. cbn [bind] in HR. destruct (mml_covariance (em_lv m) cov) as [c|] eqn:EC; [|discriminate]. cbn [bind] in HR. destruct n as [|n]; [discriminate|].
  destruct (gauss_hermite _ _ (repeat 0 (em_lv m)) (Wide (em_lv m) c)) as [rule|] eqn:EG; [|discriminate]. cbn [bind] in HR. assert (Ep : points = fst rule) by congruence. assert (El : lw = map (fun w => flog (Some w)) (snd rule)) by congruence. clear HR. exists (snd rule).
  assert (NN : fst (hermgauss (S n)) <> []). { destruct HX as (HL & HX). intro E. specialize (HX 0%nat ltac:(lia)). rewrite E in HX. pose proof (sqrt_lt_R0 PI PI_RGT_0) as SP. cbn in HX. unfold rsum in HX. cbn in HX. lra. }
  destruct (gauss_hermite_shape _ _ _ _ _ EG (proj1 HX) NN HW) as (S1 & S2 & S3 & S4). rewrite repeat_length in S4.
  assert (T1 : integral (points, snd rule) (fun _ => 1) = 1).
  { rewrite Ep. destruct (gauss_hermite_ok _ _ _ _ _ EG) as (_ & _ & L & HC & HI). rewrite <- surjective_pairing, HI. exact (sn_const _ 0 _ (rule_standard_normal _ 0 _ _ HX) 1). }
  split; [exact T1|]. split; [exact S3|]. split; [now rewrite Ep|]. intro v.
  assert (B : forall row, legal_row (em_cats m) row -> 0 < integral (points, snd rule) (fun t => likelihood p t row) <= 1).
  { intros row Hrow. split; [apply integral_pos; cbn [fst snd]; [now rewrite Ep|now rewrite Ep|exact S3|]; intros t _; now apply (likelihood_le_1 m p)|].
    apply Rle_trans with (integral (points, snd rule) (fun _ => 1)); [apply integral_le; [exact S3|]; intros t _; now apply (likelihood_le_1 m p)|rewrite T1; lra]. }
  split; [|split].
  - rewrite El, Ep. replace (map (fun w => flog (Some w)) (snd rule)) with (map (fun w => Some (Fin (ln w))) (snd rule)) by (apply map_ext_in; intros w Hin; rewrite Forall_forall in S3; now rewrite flog_pos by auto).
    rewrite (C30_marginal_likelihood m p (fst rule) (snd rule) data Hm S2 S1 S4 S3 Hd). do 3 f_equal. unfold v. rewrite Ep. f_equal. f_equal. apply map_ext. intro row. f_equal. rewrite <- surjective_pairing, <- (marginal_integral p rule row S1). reflexivity.
  - unfold v. assert (rsum (map (fun row => ln (integral (points, snd rule) (fun t => likelihood p t row))) data) <= 0); [|lra]. clear v. induction data as [|row data IH]; [cbn; lra|]. cbn [map]. rewrite rsum_cons. pose proof (Forall_inv Hd) as D1. pose proof (Forall_inv_tail Hd) as D2. specialize (IH D2). destruct (B row D1) as [B1 B2]. pose proof (ln_le _ _ B1 B2) as Q. rewrite ln_1 in Q. lra.
  - intro HN. unfold v. clear v Hd. induction HN as [|row data H1 _ IH]; [cbn; ring|]. cbn [map]. rewrite rsum_cons. rewrite (integral_ext _ _ (fun _ => 1)) by (intros; now apply no_answers_likelihood). rewrite T1, ln_1. lra.
Qed.
Print Assumptions C113_loss.
Lemma unit_one : gauss_hermite three_nodes three_weights [0] (Wide 1 (identity 1)) <> Err RuntimeError.
Proof. unfold gauss_hermite. cbn [w_rows w_cols identity map seq length Nat.eqb]. cbn [chol]. unfold chol_column. unfold at_. cbn [w_rows nth sumn]. destruct (Rlt_dec 0 (1 - 0)) as [|N]; [discriminate|exfalso; lra]. Qed.
Example C113_loss_nonvacuous : exists points lw v, mml_rule (fun _ => (three_nodes, three_weights)) true 1 (Some 3%nat) None = Ok (points, lw) /\ mml_loss ex_model points lw (Wide 2 ex_resp) = Ok (Some (Fin v)) /\ 0 <= v.
Proof.
  destruct (mml_rule (fun _ => (three_nodes, three_weights)) true 1 (Some 3%nat) None) as [[points lw]|e] eqn:E.
  - destruct (C113_loss ex_model (opl_p ex_opl) (fun _ => (three_nodes, three_weights)) (Some 3%nat) 3%nat None points lw ex_resp) as (ws & _ & _ & _ & H1 & H2 & _).
    + exact ex_library.
    + reflexivity.
    + split; [reflexivity|]. intros k Hk. apply three_exact. lia.
    + pose proof (sqrt_lt_R0 PI PI_RGT_0). cbn [snd]. unfold three_weights. repeat constructor; lra.
    + exact E.
    + exact ex_resp_legal.
    + exists points, lw, (- rsum (map (fun row => ln (integral (points, ws) (fun t => likelihood (opl_p ex_opl) t row))) ex_resp)). split; [reflexivity|]. split; [exact H1|exact H2].
  - exfalso. unfold mml_rule in E. cbn [mml_points mml_covariance bind fst snd repeat] in E. pose proof unit_one as U. destruct (C113_accepted three_nodes three_weights [0] (Wide 1 (identity 1))) as (_ & _ & X). destruct (gauss_hermite _ _ _ _) as [r|e'] eqn:G; [discriminate|]. specialize (X e' eq_refl). subst e'. now apply U.
Qed.

(** Multiplying the weights by a constant moves the loss by a constant that does not depend on the model. *)
Theorem C113_weight_scale : forall m p c points ws data v,
  library_model m p -> points <> [] -> length ws = length points -> Forall (fun t => length t = em_lv m) points -> Forall (fun w => 0 < w) ws -> 0 < c -> legal_data (em_cats m) data ->
  mml_loss m points (map (fun w => Some (Fin (ln w))) ws) (Wide (em_items m) data) = Ok (Some (Fin v)) ->
  mml_loss m points (map (fun w => Some (Fin (ln w))) (map (Rmult c) ws)) (Wide (em_items m) data) = Ok (Some (Fin (v - INR (length data) * ln c))).
Proof.
  intros m p c points ws data v Hm HP HL HF HW Hc Hd H. assert (HW' : Forall (fun w => 0 < w) (map (Rmult c) ws)) by (apply Forall_map; eapply Forall_impl; [|exact HW]; intros w Hw; now apply Rmult_lt_0_compat).
  rewrite (C30_marginal_likelihood m p points ws data Hm HP HL HF HW Hd) in H. assert (Ev : v = - rsum (map (fun row => ln (rsum (zip_with (fun w t => w * likelihood p t row) ws points))) data)) by congruence.
  rewrite (C30_marginal_likelihood m p points (map (Rmult c) ws) data Hm HP) by (try assumption; now rewrite map_length). do 3 f_equal. rewrite Ev. clear H Ev HW'.
  assert (G : forall row, rsum (zip_with (fun w t => w * likelihood p t row) (map (Rmult c) ws) points) = c * rsum (zip_with (fun w t => w * likelihood p t row) ws points)).
  { intro row. clear. revert points; induction ws as [|w ws IH]; intros [|t points]; try (cbn; ring). cbn [map zip_with]. rewrite !rsum_cons, IH. ring. }
  assert (Q : forall row, legal_row (em_cats m) row -> 0 < rsum (zip_with (fun w t => w * likelihood p t row) ws points)).
  { intros row Hrow. pose proof (integral_pos (points, ws) (fun t => likelihood p t row) HL HP HW (fun t _ => proj1 (likelihood_le_1 m p t row Hm Hrow))) as I1. rewrite <- (marginal_integral p (points, ws) row HL) in I1. exact I1. }
  induction Hd as [|row data Hrow _ IH]; [cbn; ring|]. cbn [map length]. rewrite !rsum_cons, S_INR, G, ln_mult by (try assumption; now apply Q). lra.
Qed.
Print Assumptions C113_weight_scale.
Example C113_weight_scale_nonvacuous : exists v, mml_loss ex_model [[-1]; [0]; [2]] (map (fun w => Some (Fin (ln w))) [1; 2; 1]) (Wide 2 ex_resp) = Ok (Some (Fin v)) /\
  mml_loss ex_model [[-1]; [0]; [2]] (map (fun w => Some (Fin (ln w))) (map (Rmult (1 / 4)) [1; 2; 1])) (Wide 2 ex_resp) = Ok (Some (Fin (v - 3 * ln (1 / 4)))).
Proof.
  destruct C30_nonvacuous as (v & Hv). exists v. split; [exact Hv|]. replace 3 with (INR (length ex_resp)) by (cbn; lra).
  apply (C113_weight_scale ex_model (opl_p ex_opl)); try (exact ex_library || exact ex_resp_legal || exact Hv || discriminate || reflexivity || lra).
  - repeat constructor.
  - repeat constructor; lra.
Qed.

(** The default rule, one latent variable: the weights are densities that were not multiplied by the spacing of the grid. *)
Theorem C113_quasi_mc_refuted : forall hermgauss, exists points lw ws,
  mml_rule hermgauss false 1 None None = Ok (points, lw) /\ lw = map (fun w => Some (Fin (ln w))) ws /\ Forall (fun w => 0 < w) ws /\
  1 < integral (points, ws) (fun _ => 1) /\
  forall m p data, library_model m p -> em_lv m = 1%nat -> legal_data (em_cats m) data -> data <> [] -> Forall (Forall (fun c => answer c = None)) data ->
    exists v, mml_loss m points lw (Wide (em_items m) data) = Ok (Some (Fin v)) /\ v < 0.
Proof.
  intro hermgauss. destruct (mvn_one 0 1 ltac:(lra)) as (f & EF & Hf). set (pts := map (fun x => [x]) (linspace (-3) 3 15)). set (wt := fun t => exp (normal_log_density 0 1 (nth 0 t 0))).
  assert (EG : product (repeat (linspace (-3) 3 15) 1) = pts). { unfold pts. cbn [repeat product]. generalize (linspace (-3) 3 15) as l. induction l as [|x l IH]; [reflexivity|]. cbn [flat_map map app]. f_equal; exact IH. }
  exists pts, (map (fun t => Some (Fin (f t))) pts), (map wt pts).
  assert (EM : mml_rule hermgauss false 1 None None = Ok (pts, map (fun t => Some (Fin (f t))) pts)).
  { unfold mml_rule. cbn [mml_points Nat.ltb Nat.leb mml_covariance bind]. change (map (map (fun x => Some (Fin x))) (identity 1)) with [[fin_r 1]]. change (repeat (Some (Fin 0)) 1) with [fin_r 0]. rewrite EF. cbn [bind]. unfold mml_quasi_mc. rewrite EG. reflexivity. }
  assert (EL : map (fun t => Some (Fin (f t))) pts = map (fun w => Some (Fin (ln w))) (map wt pts)). { rewrite map_map. apply map_ext. intro t. unfold wt. rewrite ln_exp, Hf. reflexivity. }
  assert (PW : Forall (fun w => 0 < w) (map wt pts)) by (apply Forall_map, Forall_forall; intros; apply exp_pos).
  assert (PS : 0 < sqrt (2 * PI * 1)) by (apply sqrt_lt_R0; pose proof PI_RGT_0; lra).
  assert (WL : forall x, (1 - x ^ 2 / 2) * / sqrt (2 * PI * 1) <= wt [x]).
  { intro x. unfold wt, normal_log_density. cbn [nth]. unfold Rminus at 2. rewrite exp_plus, exp_Ropp, exp_ln by exact PS. apply Rmult_le_compat_r; [left; now apply Rinv_0_lt_compat|]. replace (- (x - 0) ^ 2 / (2 * 1)) with (- (x ^ 2 / 2)) by field. destruct (Req_dec (- (x ^ 2 / 2)) 0) as [Z|Z]; [rewrite Z, exp_0; lra|]. pose proof (exp_ineq1 _ Z). lra. }
  assert (TW : 1 < integral (pts, map wt pts) (fun _ => 1)).
  { assert (Ei : integral (pts, map wt pts) (fun _ => 1) = rsum (map wt pts)). { unfold integral. cbn [fst snd]. generalize pts. intro l. induction l as [|t l IH]; [reflexivity|]. cbn [map zip_with]. rewrite !rsum_cons, IH. ring. }
    rewrite Ei. unfold pts. rewrite map_map. unfold linspace. rewrite map_map. set (h := fun k => wt [-3 + INR k * ((3 - -3) / INR (15 - 1))]).
    assert (ES : rsum (map h (seq 0 15)) = rsum (map h (seq 0 5)) + (h 5%nat + h 6%nat + h 7%nat + h 8%nat + h 9%nat) + rsum (map h (seq 10 5))) by (unfold rsum; cbn [seq map fold_right]; ring).
    change (1 < rsum (map h (seq 0 15))). rewrite ES. assert (P0 : forall a b, 0 <= rsum (map h (seq a b))) by (intros a b; apply rsum_nonneg, Forall_map, Forall_forall; intros; left; apply exp_pos).
    pose proof (P0 0%nat 5%nat). pose proof (P0 10%nat 5%nat). set (s := sqrt (2 * PI * 1)) in *.
    assert (Hs : s < 3). { apply Rsqr_incrst_0; [|lra|lra]. unfold Rsqr, s. rewrite sqrt_sqrt by (pose proof PI_RGT_0; lra). pose proof PI_4. lra. }
    assert (V : forall k x, -3 + INR k * ((3 - -3) / INR (15 - 1)) = x -> (1 - x ^ 2 / 2) * / s <= h k) by (intros k x <-; apply WL).
    pose proof (V 5%nat (-6 / 7) ltac:(cbn; field)) as V5. pose proof (V 6%nat (-3 / 7) ltac:(cbn; field)) as V6. pose proof (V 7%nat 0 ltac:(cbn; field)) as V7. pose proof (V 8%nat (3 / 7) ltac:(cbn; field)) as V8. pose proof (V 9%nat (6 / 7) ltac:(cbn; field)) as V9.
    assert (/ 3 < / s) by (apply Rinv_lt_contravar; [apply Rmult_lt_0_compat; lra|exact Hs]). lra. }
  split; [exact EM|]. split; [exact EL|]. split; [exact PW|]. split; [exact TW|]. intros m p data Hm Hlv Hd Hne HN.
  assert (LP : length (map wt pts) = length pts) by now rewrite map_length.
  eexists. split; [rewrite EL; apply (C30_marginal_likelihood m p pts (map wt pts) data Hm)|].
  - discriminate.
  - exact LP.
  - unfold pts. apply Forall_map, Forall_forall. intros. now rewrite Hlv.
  - exact PW.
  - exact Hd.
  - assert (L1 : 0 < ln (integral (pts, map wt pts) (fun _ => 1))) by (rewrite <- ln_1; apply ln_increasing; lra). set (l := ln _) in L1.
    assert (G : rsum (map (fun row => ln (rsum (zip_with (fun w t => w * likelihood p t row) (map wt pts) pts))) data) = INR (length data) * l).
    { clear Hd Hne. induction HN as [|row data H1 _ IH]; [cbn; ring|]. cbn [map length]. rewrite rsum_cons, IH, S_INR. enough (E : rsum (zip_with (fun w t => w * likelihood p t row) (map wt pts) pts) = integral (pts, map wt pts) (fun _ => 1)) by (rewrite E; fold l; ring).
      transitivity (integral (pts, map wt pts) (fun t => likelihood p t row)); [exact (marginal_integral p (pts, map wt pts) row LP)|]. apply integral_ext. intros. now apply no_answers_likelihood. }
    rewrite G. destruct data as [|row data]; [congruence|]. pose proof (lt_0_INR (length (row :: data)) ltac:(cbn; lia)). pose proof (Rmult_lt_0_compat _ _ H L1). lra.
Qed.
Print Assumptions C113_quasi_mc_refuted.
