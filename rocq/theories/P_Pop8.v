(** Directions: the remaining models, and a nominal item reported as related to a latent variable that does
    not enter it. *)
From Verif Require Import Base BaseFacts RBase RFacts M_Data M_Logit S_Logit P_Logit P_Logit2 P_Logit3 P_Logit4 M_Lik M_Mono S_Mono M_Scale S_Scale M_Pop S_Pop P_Pop1 P_Pop2 P_Pop3 P_Pop4.
Import List.
Local Open Scope R_scope.

Lemma opl_follows m thetas r r' t t' i : length (opl_b m) = opl_items m -> nth_error thetas r = Some t -> nth_error thetas r' = Some t' -> (i < opl_items m)%nat -> t < t' ->
  exists es e e' z, expected_item_scores (opl_items m) 2 None (opl_probabilities m thetas) = Ok es /\
    at2 es r i = Some (Some e) /\ at2 es r' i = Some (Some e') /\ at2 (opl_directions m) i 0 = Some z /\ follows z e e'.
Proof.
  intros Hb Hr Hr' Hi Ht.
  destruct (binary_expected (opl_items m) (opl_probabilities m thetas) r i (logistic (t + nth i (opl_b m) 0)) Hi) as (es & E & E1).
  { exact (opl_probs_spec m thetas r t i 0 Hb Hr Hi ltac:(lia)). } { exact (opl_probs_spec m thetas r t i 1 Hb Hr Hi ltac:(lia)). }
  destruct (binary_expected (opl_items m) (opl_probabilities m thetas) r' i (logistic (t' + nth i (opl_b m) 0)) Hi) as (es' & E' & E2).
  { exact (opl_probs_spec m thetas r' t' i 0 Hb Hr' Hi ltac:(lia)). } { exact (opl_probs_spec m thetas r' t' i 1 Hb Hr' Hi ltac:(lia)). }
  assert (es' = es) by congruence. subst es'. exists es. do 3 eexists. split; [exact E|]. split; [exact E1|]. split; [exact E2|]. split.
  - unfold at2, opl_directions. rewrite nth_error_repeat_lt by auto. reflexivity.
  - left. split; [reflexivity|]. apply logistic_incr. lra.
Qed.
Lemma tpl_follows m thetas r r' t t' i d : tpl_wf m -> Forall (fun t => length t = tpl_lv m) thetas -> nth_error thetas r = Some t -> nth_error thetas r' = Some t' ->
  (i < tpl_items m)%nat -> (d < tpl_lv m)%nat -> increases_in d t t' ->
  exists es e e' z, expected_item_scores (tpl_items m) 2 None (tpl_probabilities m thetas) = Ok es /\
    at2 es r i = Some (Some e) /\ at2 es r' i = Some (Some e') /\ at2 (tpl_directions m) i d = Some z /\ follows z e e'.
Proof.
  intros Hwf HF Hr Hr' Hi Hd Hinc. pose proof Hwf as (Hlv & Hfr & Hw & Hb).
  destruct (binary_expected (tpl_items m) (tpl_probabilities m thetas) r i (logistic (predictor (tpl_lv m) (slope (tpl_free m) (tpl_w m) i) t + nth i (tpl_b m) 0)) Hi) as (es & E & E1).
  { exact (tpl_probs_spec m thetas r t i 0 Hwf HF Hr Hi ltac:(lia)). } { exact (tpl_probs_spec m thetas r t i 1 Hwf HF Hr Hi ltac:(lia)). }
  destruct (binary_expected (tpl_items m) (tpl_probabilities m thetas) r' i (logistic (predictor (tpl_lv m) (slope (tpl_free m) (tpl_w m) i) t' + nth i (tpl_b m) 0)) Hi) as (es' & E' & E2).
  { exact (tpl_probs_spec m thetas r' t' i 0 Hwf HF Hr' Hi ltac:(lia)). } { exact (tpl_probs_spec m thetas r' t' i 1 Hwf HF Hr' Hi ltac:(lia)). }
  assert (es' = es) by congruence. subst es'. exists es. do 3 eexists. split; [exact E|]. split; [exact E1|]. split; [exact E2|]. split.
  - unfold tpl_directions. apply weight_signs_nth; auto.
  - apply (follows_slope (tpl_lv m) (slope (tpl_free m) (tpl_w m) i) t t' d logistic (nth i (tpl_b m) 0) Hd Hinc). apply logistic_incr.
Qed.
Lemma thpl_follows m thetas r r' t t' i d : thpl_wf m -> Forall (fun t => length t = thpl_lv m) thetas -> nth_error thetas r = Some t -> nth_error thetas r' = Some t' ->
  (i < thpl_items m)%nat -> (d < thpl_lv m)%nat -> increases_in d t t' ->
  exists es e e' z, expected_item_scores (thpl_items m) 2 None (some3 (thpl_probabilities m thetas)) = Ok es /\
    at2 es r i = Some (Some e) /\ at2 es r' i = Some (Some e') /\ at2 (thpl_directions m) i d = Some z /\ follows z e e'.
Proof.
  intros Hwf HF Hr Hr' Hi Hd Hinc. pose proof Hwf as (Hlv & Hfr & Hw & Hb & Hg).
  set (c := logistic (nth i (thpl_g m) 0)). pose proof (logistic_bounds (nth i (thpl_g m) 0)) as Hc. fold c in Hc.
  set (g := fun x => c + (1 - c) * logistic x).
  destruct (binary_expected (thpl_items m) (some3 (thpl_probabilities m thetas)) r i (g (predictor (thpl_lv m) (slope (thpl_free m) (thpl_w m) i) t + nth i (thpl_b m) 0)) Hi) as (es & E & E1).
  { exact (some3_at3 _ _ _ _ _ (thpl_probs_spec m thetas r t i 0 Hwf HF Hr Hi ltac:(lia))). } { exact (some3_at3 _ _ _ _ _ (thpl_probs_spec m thetas r t i 1 Hwf HF Hr Hi ltac:(lia))). }
  destruct (binary_expected (thpl_items m) (some3 (thpl_probabilities m thetas)) r' i (g (predictor (thpl_lv m) (slope (thpl_free m) (thpl_w m) i) t' + nth i (thpl_b m) 0)) Hi) as (es' & E' & E2).
  { exact (some3_at3 _ _ _ _ _ (thpl_probs_spec m thetas r' t' i 0 Hwf HF Hr' Hi ltac:(lia))). } { exact (some3_at3 _ _ _ _ _ (thpl_probs_spec m thetas r' t' i 1 Hwf HF Hr' Hi ltac:(lia))). }
  assert (es' = es) by congruence. subst es'. exists es. do 3 eexists. split; [exact E|]. split; [exact E1|]. split; [exact E2|]. split.
  - unfold thpl_directions. apply weight_signs_nth; auto.
  - apply (follows_slope (thpl_lv m) (slope (thpl_free m) (thpl_w m) i) t t' d g (nth i (thpl_b m) 0) Hd Hinc). intros x y Hxy. apply logistic_incr in Hxy. unfold g. nra.
Qed.

(** ** A nominal item *)
Definition odd_one : nrm := {| nrm_cats := [2%nat]; nrm_lv := 2; nrm_rel := [[true; false]]; nrm_w := [1]; nrm_b := [0] |}.
Definition three_scores : list (list R) := [[0; 0]; [1; 0]; [2; 1]].
Lemma odd_wf : nrm_wf odd_one.
Proof. unfold nrm_wf. cbn. repeat split; auto; repeat constructor. Qed.
Lemma odd_slopes t : predictor 2 (nrm_slope odd_one 0 1) t = nth 0 t 0 /\ predictor 2 (nrm_slope odd_one 0 0) t = - nth 0 t 0.
Proof. unfold predictor, nrm_slope. cbn. unfold nrm_free_slope. cbn. split; ring. Qed.
Lemma odd_intercepts k : (k < 2)%nat -> nrm_intercept odd_one 0 k = 0.
Proof. destruct k as [|[|k]]; intro H; [| |lia]; unfold nrm_intercept; cbn; try ring; reflexivity. Qed.
Lemma odd_probability t k : (k < 2)%nat -> category_probability 2 (fun k => predictor 2 (nrm_slope odd_one 0 k) t + nrm_intercept odd_one 0 k) k =
  if (k =? 1)%nat then logistic (2 * nth 0 t 0) else 1 - logistic (2 * nth 0 t 0).
Proof.
  intro Hk. destruct (odd_slopes t) as [S1 S0]. unfold category_probability. cbn [sumn]. rewrite S1, S0, !odd_intercepts by lia. rewrite !Rplus_0_r, Rplus_0_l.
  set (x := nth 0 t 0). pose proof (exp_pos x) as Hx. unfold logistic. replace (- (2 * x)) with (- x + - x) by ring. rewrite exp_plus.
  assert (exp (- x) = / exp x) as E by apply exp_Ropp. pose proof (exp_pos (- x)) as Hx'.
  destruct k as [|[|k]]; [| |lia]; cbn [Nat.eqb]; rewrite ?S0, ?S1, ?odd_intercepts, ?Rplus_0_r by lia; fold x; rewrite E; field; split; nra.
Qed.
Lemma odd_scores thetas : Forall (fun t => length t = 2%nat) thetas ->
  exists es, expected_item_scores 1 2 None (nrm_probabilities odd_one thetas) = Ok es /\ length es = length thetas /\
    forall r t, nth_error thetas r = Some t -> at2 es r 0 = Some (Some (logistic (2 * nth 0 t 0))).
Proof.
  intro HF. unfold expected_item_scores, item_score_table. cbn [rmap]. eexists. split; [reflexivity|].
  assert (L : length (nrm_probabilities odd_one thetas) = length thetas).
  { unfold nrm_probabilities. assert (HO : Forall (fun o => length o = (1 * 2)%nat) (nrm_forward odd_one thetas)).
    { apply Forall_forall. intros o Ho. apply in_map_iff in Ho as (t & <- & _). reflexivity. }
    destruct (probabilities_shape 1 2 (nrm_forward odd_one thetas) ltac:(lia) ltac:(lia) HO) as [LL _].
    change (length (nrm_cats odd_one)) with 1%nat. change (nrm_max odd_one) with 2%nat. rewrite LL. unfold nrm_forward. apply map_length. }
  split; [now rewrite map_length|]. intros r t Hr.
  destruct (binary_expected 1 (nrm_probabilities odd_one thetas) r 0 (logistic (2 * nth 0 t 0)) ltac:(lia)) as (es & E & E1).
  - rewrite (nrm_probs_spec odd_one odd_wf thetas r t 0 2 0 HF Hr eq_refl ltac:(cbn; lia)). cbn [Nat.ltb Nat.leb]. change (nrm_lv odd_one) with 2%nat. rewrite odd_probability by lia. reflexivity.
  - rewrite (nrm_probs_spec odd_one odd_wf thetas r t 0 2 1 HF Hr eq_refl ltac:(cbn; lia)). cbn [Nat.ltb Nat.leb]. change (nrm_lv odd_one) with 2%nat. rewrite odd_probability by lia. reflexivity.
  - unfold expected_item_scores, item_score_table in E. cbn [rmap] in E. assert (es = _) by (symmetry; exact (f_equal (fun o => match o with Ok v => v | Err _ => [] end) E)). subst es. exact E1.
Qed.
Lemma odd_inverse : inverse_matrix 3 (gram 3 (design three_scores)) [[1; -1; 1]; [-1; 2; -3]; [1; -3; 6]].
Proof.
  split; [apply gram_matrix|]. split; [split; [reflexivity|repeat constructor]|].
  split; intros i j Hi Hj; (destruct i as [|[|[|i]]]; [| | |lia]); (destruct j as [|[|[|j]]]; [| | |lia]); cbn; lra.
Qed.
Lemma logistic_concave : logistic 4 + / 2 < 2 * logistic 2.
Proof.
  unfold logistic. replace (- (4)) with (-2 + -2) by ring. replace (- (2)) with (-2) by ring. rewrite exp_plus. set (u := exp (-2)).
  assert (Hu : 0 < u) by apply exp_pos. assert (Hu1 : u < 1). { unfold u. rewrite <- exp_0. apply exp_increasing. lra. }
  assert (0 < 1 + u * u) by nra. assert (0 < 1 + u) by lra.
  apply (Rmult_lt_reg_r (2 * (1 + u * u) * (1 + u))); [apply Rmult_lt_0_compat; nra|].
  replace ((/ (1 + u * u) + / 2) * (2 * (1 + u * u) * (1 + u))) with (2 * (1 + u) + (1 + u * u) * (1 + u)) by (field; lra).
  replace (2 * / (1 + u) * (2 * (1 + u * u) * (1 + u))) with (4 * (1 + u * u)) by (field; lra).
  assert (0 < (1 - u) * (1 - u) * (1 - u)) by (repeat apply Rmult_lt_0_compat; lra). nra.
Qed.
Lemma odd_reported inv nan : inverse_exact 3 inv -> nrm_directions inv nan None odd_one (Some three_scores) = Ok [[1%Z; (-1)%Z]].
Proof.
  intro HI. destruct (HI _ (gram_matrix 3 (design three_scores))) as [(W & HW & HWi)|[_ HN]]; [|destruct (HN _ odd_inverse)].
  assert (HF : Forall (fun t => length t = 2%nat) three_scores) by repeat constructor.
  destruct (odd_scores three_scores HF) as (es & E & L & G).
  unfold nrm_directions. change (length (nrm_cats odd_one)) with 1%nat. change (nrm_lv odd_one) with 2%nat. change (nrm_max odd_one) with 2%nat. rewrite E.
  set (y := fun r => logistic (2 * nth 0 (nth r three_scores []) 0)).
  destruct (base_directions_at inv nan 1 2 es three_scores W 0 y L ltac:(lia) HW HWi) as (dirs & w & E1 & Ld & Hn & Hd).
  { intros r Hr. specialize (G r (nth r three_scores []) (nth_error_nth_lt three_scores r [] Hr)). unfold at2 in G. destruct (nth_error es r) as [row|] eqn:Er; [|discriminate].
    rewrite (nth_error_nth _ _ [] Er). now apply nth_error_nth. }
  rewrite E1.
  assert (B : w 1%nat = logistic 2 - / 2 /\ w 2%nat = logistic 4 + / 2 - 2 * logistic 2).
  { pose proof (Hn 0%nat ltac:(lia)) as N0. pose proof (Hn 1%nat ltac:(lia)) as N1. pose proof (Hn 2%nat ltac:(lia)) as N2. unfold y in *.
    cbn [length three_scores sumn] in N0, N1, N2. rewrite !entry_0, !entry_S in N0, N1, N2 by (cbn; lia). cbn [nth three_scores] in N0, N1, N2.
    replace (2 * 0) with 0 in * by ring. replace (2 * 1) with 2 in * by ring. replace (2 * 2) with 4 in * by ring.
    assert (L0 : logistic 0 = / 2) by (unfold logistic; rewrite Ropp_0, exp_0; reflexivity). rewrite L0 in *. split; lra. }
  destruct B as [B1 B2].
  assert (R1 : rsign (w 1%nat) = 1%Z).
  { assert (L0 : logistic 0 = / 2) by (unfold logistic; rewrite Ropp_0, exp_0; reflexivity). pose proof (logistic_incr 0 2 ltac:(lra)). destruct (rsign_cases (w 1%nat)) as [[H9 _]|[[_ H9]|[_ H9]]]; auto; lra. }
  assert (R2 : rsign (w 2%nat) = (-1)%Z). { pose proof logistic_concave. destruct (rsign_cases (w 2%nat)) as [[_ H1]|[[H1 _]|[_ H1]]]; auto; lra. }
  pose proof (Hd 0%nat ltac:(lia)) as D0. pose proof (Hd 1%nat ltac:(lia)) as D1. rewrite R1 in D0. rewrite R2 in D1.
  unfold base_directions in E1. cbn [bind seq mapM] in E1. unfold linear_regression in E1. rewrite map_length, design_length, L, Nat.eqb_refl, HW in E1. cbn [bind map seq skipn] in E1.
  assert (Ex : exists a b, dirs = [[a; b]]). { do 2 eexists. symmetry. exact (f_equal (fun o => match o with Ok v => v | Err _ => [] end) E1). }
  destruct Ex as (a & b & ->). cbn in D0, D1. congruence.
Qed.
