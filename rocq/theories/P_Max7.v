(** Existence of ML and MAP scores with any number of latent variables. *)
From Verif Require Import Base BaseFacts RBase RFacts M_Data M_Logit M_Lik M_Est P_Logit P_Logit2 P_Est2 P_Info2 P_Opt1 P_Opt2 P_Opt3 P_Opt4 P_Max1 P_Max2 P_Max3 P_Max4 P_Max5 P_Max6 S_Logit S_Lik S_Est S_Opt S_Max.
Import List.
Local Open Scope R_scope.

Lemma nth_scaled d (t : list R) N : nth d (map (fun x => x / N) t) 0 = nth d t 0 / N.
Proof. replace 0 with (0 / N) at 1 by (unfold Rdiv; ring). apply (map_nth (fun x => x / N)). Qed.
Lemma nth_zeros d n : nth d (repeat 0 n) 0 = 0.
Proof. apply nth_repeat. Qed.

(** ** MAP *)
Lemma quad_ucont n lv P : ucont n (fun t => quad lv P (fun d => nth d t 0)).
Proof. unfold quad. apply (ucont_sumn n lv (fun d t => sumn lv (fun e => P d e * nth d t 0 * nth e t 0))). intros d _. apply (ucont_sumn n lv (fun e t => P d e * nth d t 0 * nth e t 0)). intros e _. apply ucont_mult; [apply ucont_scal, ucont_nth|apply ucont_nth]. Qed.
Lemma quad_grows lv P : precision lv P -> exists r, 0 < r /\ forall t d, length t = lv -> (d < lv)%nat -> r * (nth d t 0 * nth d t 0) <= quad lv P (fun d => nth d t 0).
Proof.
  intros [_ HP]. destruct (scaled_min lv _ (quad_ucont lv lv P) ltac:(intros t _ H; now apply HP)) as (r & Hr & H). exists r. split; [exact Hr|]. intros t d L Hd. destruct (Req_dec (nth d t 0) 0) as [E|E].
  - rewrite E. destruct (nonzero_dec lv (fun d => nth d t 0)) as [Hx|Hx]; [pose proof (HP _ Hx); lra|]. unfold quad. rewrite (sumn_ext lv _ (fun _ => 0)); [rewrite sumn_0; lra|]. intros d' Hd'. rewrite (sumn_ext lv _ (fun _ => 0)); [apply sumn_0|]. intros e He. rewrite (Hx d' Hd'). ring.
  - destruct (H t d L Hd E) as (N & HN & HdN & Hq). assert (Q : quad lv P (fun d => nth d (map (fun x => x / N) t) 0) = quad lv P (fun d => nth d t 0) / (N * N)).
    { unfold quad. rewrite <- sumn_div. apply sumn_ext. intros d' _. rewrite <- sumn_div. apply sumn_ext. intros e _. rewrite !nth_scaled. field. lra. }
    rewrite Q in Hq. assert (r * (N * N) <= quad lv P (fun d => nth d t 0)).
    { apply (Rmult_le_reg_r (/ (N * N))); [apply Rinv_0_lt_compat; now apply Rmult_lt_0_compat|]. rewrite Rmult_assoc, Rinv_r by (apply Rgt_not_eq; now apply Rmult_lt_0_compat). lra. }
    assert (nth d t 0 * nth d t 0 <= N * N); [|nra]. replace (nth d t 0 * nth d t 0) with (Rabs (nth d t 0) * Rabs (nth d t 0)) by (rewrite <- Rabs_mult; apply Rabs_right; pose proof (Rle_0_sqr (nth d t 0)); unfold Rsqr in *; lra). apply Rmult_le_compat; try assumption; apply Rabs_pos.
Qed.
Lemma map_exists m p row c P : library_model m p -> legal_row (em_cats m) row -> precision (em_lv m) P ->
  exists t, length t = em_lv m /\ forall t', length t' = em_lv m -> exp (normal_prior (em_lv m) c P t') * likelihood p t' row <= exp (normal_prior (em_lv m) c P t) * likelihood p t row.
Proof.
  intros Hm HL HP. set (lv := em_lv m) in *. destruct (quad_grows lv P HP) as (r & Hr & Hq). set (l0 := likelihood p (repeat 0 lv) row). pose proof (likelihood_le_1 m p (repeat 0 lv) row Hm HL) as H0. fold l0 in H0.
  set (A := - ln l0). assert (HA : 0 <= A) by (unfold A; pose proof (ln_le l0 1 (proj1 H0) (proj2 H0)) as H; rewrite ln_1 in H; lra).
  assert (U : ucont lv (fun t => exp (normal_prior lv c P t) * likelihood p t row)).
  { apply ucont_mult; [|now apply (likelihood_ucont m p)]. apply ucont_exp. unfold normal_prior. apply ucont_minus; [apply ucont_const|]. apply (ucont_ext lv (fun t => / 2 * quad lv P (fun d => nth d t 0))); [intros; unfold Rdiv; ring|]. apply ucont_scal, quad_ucont. }
  assert (HA2 : 0 <= 2 * A / r) by (apply Rmult_le_pos; [lra|left; now apply Rinv_0_lt_compat]). apply (far_maximum lv _ (1 + 2 * A / r)); [lra|exact U|]. intros t d L Hd HB.
  pose proof (likelihood_le_1 m p t row Hm HL) as Ht. pose proof (exp_pos (normal_prior lv c P t)) as He.
  assert (E0 : exp (normal_prior lv c P (repeat 0 lv)) * likelihood p (repeat 0 lv) row = exp (c + - A)).
  { fold l0. unfold A. rewrite exp_plus. replace (- - ln l0) with (ln l0) by ring. rewrite exp_ln by lra. f_equal. f_equal. unfold normal_prior, quad. rewrite (sumn_ext lv _ (fun _ => 0)); [rewrite sumn_0; lra|]. intros d' _. rewrite (sumn_ext lv _ (fun _ => 0)); [apply sumn_0|]. intros e _. rewrite nth_zeros. ring. }
  rewrite E0. apply Rle_trans with (exp (normal_prior lv c P t)); [rewrite <- (Rmult_1_r (exp (normal_prior lv c P t))) at 2; apply Rmult_le_compat_l; lra|].
  assert (EP : normal_prior lv c P t <= c + - A); [|destruct EP as [EP| ->]; [left; now apply exp_increasing|right; reflexivity]]. unfold normal_prior. specialize (Hq t d L Hd).
  assert (EA : r * (2 * A / r) = 2 * A) by (field; lra). assert (Hsq : nth d t 0 * nth d t 0 = Rabs (nth d t 0) * Rabs (nth d t 0)) by (rewrite <- Rabs_mult; symmetry; apply Rabs_right; pose proof (Rle_0_sqr (nth d t 0)); unfold Rsqr in *; lra).
  rewrite Hsq in Hq. assert (r * (2 * A / r) <= r * (Rabs (nth d t 0) * Rabs (nth d t 0))); [|lra]. apply Rmult_le_compat_l; [lra|]. set (u := Rabs (nth d t 0)) in *. set (w := 2 * A / r) in *. nra.
Qed.

(** ** ML *)
Lemma predictor_scaled lv a t N : predictor lv a (map (fun x => x / N) t) = predictor lv a t / N.
Proof. unfold predictor. rewrite <- sumn_div. apply sumn_ext. intros d _. rewrite nth_scaled. unfold Rdiv. ring. Qed.
Lemma slopes_scaled m p s : slopes_of m p s -> forall t i k N, s (map (fun x => x / N) t) i k = s t i k / N.
Proof. intros [nanl o Ho Hi|nanl o Ho Hi|nanl o Ho Hi|nanl o Ho Hi Hd|nanl o Ho Hi] t i k N; rewrite ?nth_scaled, ?predictor_scaled; unfold Rdiv; ring. Qed.
Lemma slopes_ucont m p s : slopes_of m p s -> forall n i k, ucont n (fun t => s t i k).
Proof.
  intros [nanl o Ho Hi|nanl o Ho Hi|nanl o Ho Hi|nanl o Ho Hi Hd|nanl o Ho Hi] n i k; [apply ucont_scal, ucont_nth|apply ucont_scal, ucont_predictor|apply ucont_scal, ucont_predictor|apply ucont_scal, ucont_predictor|apply ucont_predictor].
Qed.
Lemma ln_logistic_le u : ln (logistic u) <= u.
Proof. rewrite <- (ln_exp u) at 2. apply ln_le; [apply logistic_bounds|apply logistic_le_exp]. Qed.
Lemma two_far (q : nat -> R) b a k j : (forall k, q k = if (k =? 1)%nat then logistic (a + b) else 1 - logistic (a + b)) -> (k < 2)%nat -> (j < 2)%nat -> ln (q k) <= Rabs b - 1 * (INR j * a - INR k * a).
Proof.
  intros Hq Hk Hj. rewrite Hq. pose proof (logistic_bounds (a + b)) as HB. pose proof (Rle_abs b) as B1. pose proof (Rle_abs (- b)) as B2. rewrite Rabs_Ropp in B2.
  destruct k as [|[|k]]; [| |lia]; (destruct j as [|[|j]]; [| |lia]); cbn [Nat.eqb INR].
  - pose proof (ln_le (1 - logistic (a + b)) 1 ltac:(lra) ltac:(lra)) as H. rewrite ln_1 in H. pose proof (Rabs_pos b). lra.
  - rewrite logistic_opp. pose proof (ln_logistic_le (- (a + b))). lra.
  - pose proof (ln_logistic_le (a + b)). lra.
  - pose proof (ln_le (logistic (a + b)) 1 ltac:(lra) ltac:(lra)) as H. rewrite ln_1 in H. pose proof (Rabs_pos b). lra.
Qed.
Lemma slopes_far m p s i k j : slopes_of m p s -> (k < nth i (em_cats m) O)%nat -> (j < nth i (em_cats m) O)%nat -> exists r C, 0 < r /\ forall t, ln (p t i k) <= C - r * (s t i j - s t i k).
Proof.
  intros [nanl o Ho Hi|nanl o Ho Hi|nanl o Ho Hi|nanl o Ho Hi Hd|nanl o Ho Hi] Hk Hj.
  - assert (E := Hk). cbn [of_sub opl_sub logit_sub em_cats sb_cats] in E. apply nth_repeat_two in E. cbn [of_sub opl_sub logit_sub em_cats sb_cats] in *. rewrite E in *. exists 1, (Rabs (nth i (opl_b o) 0)). split; [lra|]. intro t. apply (two_far (opl_p o t i)); auto.
  - assert (E := Hk). cbn [of_sub tpl_sub logit_sub em_cats sb_cats] in E. apply nth_repeat_two in E. cbn [of_sub tpl_sub logit_sub em_cats sb_cats] in *. rewrite E in *. exists 1, (Rabs (nth i (tpl_b o) 0)). split; [lra|]. intro t. apply (two_far (tpl_p o t i)); auto.
  - change (em_cats (of_sub (gpc_sub nanl o))) with (p_cats o) in *. exists 1, (intercept (p_cats o) (p_b o) i k - intercept (p_cats o) (p_b o) i j). split; [lra|]. intro t. unfold gpc_p. set (z := fun k => INR k * predictor (p_lv o) (slope (p_free o) (p_w o) i) t + intercept (p_cats o) (p_b o) i k).
    replace (_ - _ - _) with (z k - z j) by (unfold z; ring). rewrite <- (ln_exp (z k - z j)). apply ln_le; [apply category_probability_pos; lia|now apply cp_le_ratio].
  - change (em_cats (of_sub (grm_sub nanl o))) with (p_cats o) in *. set (K := nth i (p_cats o) O) in *. set (c := intercept (p_cats o) (p_b o) i). assert (EK : nth_error (p_cats o) i = Some K) by (apply nth_error_nth_lt; destruct (Nat.lt_ge_cases i (length (p_cats o))) as [|Hge]; [assumption|unfold K in Hk; rewrite nth_overflow in Hk by lia; lia]).
    assert (Hc : forall j, (1 <= j)%nat -> (S j < K)%nat -> c (S j) < c j) by (intros j' H1 H2; exact (Hd i K j' EK H1 H2)).
    assert (E : forall t, grm_p o t i k = graded_q K c (predictor (p_lv o) (slope (p_free o) (p_w o) i) t) k 1).
    { intro t. unfold grm_p, graded_q. cbv zeta. fold K. fold c. unfold geq_probability. set (a := predictor _ _ t). replace (c k + 1 * a) with (a + c k) by ring. replace (c (S k) + 1 * a) with (a + c (S k)) by ring. reflexivity. }
    destruct (Nat.lt_trichotomy j k) as [Hjk|[->|Hjk]].
    + exists (/ (INR k - INR j)), (c k). pose proof (lt_INR j k Hjk). split; [apply Rinv_0_lt_compat; lra|]. intro t. rewrite E. pose proof (graded_low K c (predictor (p_lv o) (slope (p_free o) (p_w o) i) t) Hc k 1 ltac:(lia) Hk) as B. set (a := predictor _ _ t) in *. replace (c k - / (INR k - INR j) * (INR j * a - INR k * a)) with (c k + a * 1) by (field; lra). exact B.
    + exists 1, 0. split; [lra|]. intro t. pose proof (library_le_1 (of_sub (grm_sub nanl o)) (grm_p o) t i k (lib_grm nanl o Ho Hi Hd) Hk) as B. pose proof (library_pos (of_sub (grm_sub nanl o)) (grm_p o) (lib_grm nanl o Ho Hi Hd) t i k Hk) as B0. pose proof (ln_le _ _ B0 B) as H. rewrite ln_1 in H. lra.
    + exists (/ (INR j - INR k)), (- c (S k)). pose proof (lt_INR k j Hjk). split; [apply Rinv_0_lt_compat; lra|]. intro t. rewrite E. pose proof (graded_high K c (predictor (p_lv o) (slope (p_free o) (p_w o) i) t) Hc k 1 ltac:(lia)) as B. set (a := predictor _ _ t) in *. replace (- c (S k) - / (INR j - INR k) * (INR j * a - INR k * a)) with (- c (S k) - a * 1) by (field; lra). exact B.
  - change (em_cats (of_sub (nrm_sub nanl o))) with (nrm_cats o) in *. exists 1, (nrm_intercept o i k - nrm_intercept o i j). split; [lra|]. intro t. unfold nrm_p. set (z := fun k => predictor (nrm_lv o) (nrm_slope o i k) t + nrm_intercept o i k).
    replace (_ - _ - _) with (z k - z j) by (unfold z; ring). rewrite <- (ln_exp (z k - z j)). apply ln_le; [apply category_probability_pos; lia|now apply cp_le_ratio].
Qed.

Section Pull.
  Variables (m : emodel) (p s : list R -> nat -> nat -> R) (row : list cell).
  Hypothesis (Hs : slopes_of m p s) (HL : legal_row (em_cats m) row).
  (** How strongly item [i] pulls back at [t]. *)
  Definition pull (t : list R) (i : nat) : R := match answer (nth i row None) with None => 0 | Some k => sumn (nth i (em_cats m) O) (fun j => Rmax 0 (s t i j - s t i k)) end.
  Lemma pull_nonneg t i : 0 <= pull t i.
  Proof using Type. unfold pull. destruct (answer _); [|lra]. apply sumn_nonneg. intros; apply Rmax_l. Qed.
  Lemma item_pull i : exists r C, 0 < r /\ forall t, seen_log p row t i <= C - r * pull t i.
  Proof using Hs HL.
    unfold seen_log, pull. destruct (answer (nth i row None)) as [k|] eqn:E; [|exists 1, 0; split; [lra|intro; lra]]. destruct (legal_answer (em_cats m) row i k HL E) as [Hk _]. pose proof (proj1 (slopes_library m p s Hs)) as Hm.
    assert (N : forall t, ln (p t i k) <= 0) by (intro t; rewrite <- ln_1; apply ln_le; [now apply (library_pos m p)|now apply (library_le_1 m p)]).
    assert (G : forall n, (n <= nth i (em_cats m) O)%nat -> exists r C, 0 < r /\ forall t, ln (p t i k) <= C - r * sumn n (fun j => Rmax 0 (s t i j - s t i k))); [|now apply G].
    induction n as [|n IH]; intro Hn; [exists 1, 0; split; [lra|]; intro t; cbn [sumn]; specialize (N t); lra|]. destruct (IH ltac:(lia)) as (r1 & C1 & Hr1 & H1). destruct (slopes_far m p s i k n Hs Hk ltac:(lia)) as (r2 & C2 & Hr2 & H2).
    exists (Rmin r1 r2 / 2), ((C1 + Rmax 0 C2) / 2). pose proof (Rmin_glb_lt _ _ _ Hr1 Hr2) as Hr. split; [lra|]. intro t. cbn [sumn]. specialize (H1 t). specialize (H2 t). specialize (N t). pose proof (Rmax_l 0 C2) as M1. pose proof (Rmax_r 0 C2) as M2.
    set (S1 := sumn n (fun j => Rmax 0 (s t i j - s t i k))) in *. assert (P1 : 0 <= S1) by (apply sumn_nonneg; intros; apply Rmax_l).
    assert (B : ln (p t i k) <= Rmax 0 C2 - r2 * Rmax 0 (s t i n - s t i k)) by (unfold Rmax at 2; destruct (Rle_dec 0 (s t i n - s t i k)); lra). pose proof (Rmax_l 0 (s t i n - s t i k)) as P2. set (S2 := Rmax 0 (s t i n - s t i k)) in *.
    pose proof (Rmult_le_compat_r S1 _ _ P1 (Rmin_l r1 r2)). pose proof (Rmult_le_compat_r S2 _ _ P2 (Rmin_r r1 r2)). lra.
  Qed.
  Lemma total_pull n : exists r C, 0 < r /\ forall t, sumn n (seen_log p row t) <= C - r * sumn n (pull t).
  Proof using Hs HL.
    induction n as [|n (r1 & C1 & Hr1 & H1)]; [exists 1, 0; split; [lra|]; intro t; cbn [sumn]; lra|]. destruct (item_pull n) as (r2 & C2 & Hr2 & H2). exists (Rmin r1 r2), (C1 + C2). split; [now apply Rmin_glb_lt|]. intro t. cbn [sumn]. specialize (H1 t). specialize (H2 t).
    assert (P1 : 0 <= sumn n (pull t)) by (apply sumn_nonneg; intros; apply pull_nonneg). pose proof (pull_nonneg t n) as P2. pose proof (Rmult_le_compat_r _ _ _ P1 (Rmin_l r1 r2)). pose proof (Rmult_le_compat_r _ _ _ P2 (Rmin_r r1 r2)). lra.
  Qed.
  Lemma pull_positive t : held_back (em_cats m) (s t) row -> 0 < sumn (length row) (pull t).
  Proof using HL.
    intros (i & k & j & E & Hj & Hl). destruct (legal_answer (em_cats m) row i k HL E) as [_ Hi]. apply Rlt_le_trans with (pull t i); [|apply (sumn_term_le (length row) (pull t) i); [intros; apply pull_nonneg|exact Hi]].
    unfold pull. rewrite E. apply Rlt_le_trans with (Rmax 0 (s t i j - s t i k)); [unfold Rmax; destruct (Rle_dec 0 (s t i j - s t i k)); lra|]. apply (sumn_term_le _ (fun j => Rmax 0 (s t i j - s t i k)) j); [intros; apply Rmax_l|exact Hj].
  Qed.
  Lemma pull_ucont n : ucont n (fun t => sumn (length row) (pull t)).
  Proof using Hs.
    apply (ucont_sumn n (length row) (fun i t => pull t i)). intros i _. unfold pull. destruct (answer (nth i row None)) as [k|]; [|apply ucont_const]. apply (ucont_sumn n _ (fun j t => Rmax 0 (s t i j - s t i k))). intros j _. apply ucont_max; [apply ucont_const|]. apply ucont_minus; now apply (slopes_ucont m p s).
  Qed.
  Lemma pull_scaled t N : 0 < N -> sumn (length row) (pull (map (fun x => x / N) t)) = sumn (length row) (pull t) / N.
  Proof using Hs.
    intro HN. rewrite <- sumn_div. apply sumn_ext. intros i _. unfold pull. destruct (answer (nth i row None)) as [k|]; [|unfold Rdiv; ring]. rewrite <- sumn_div. apply sumn_ext. intros j _. rewrite !(slopes_scaled m p s Hs). pose proof (Rinv_0_lt_compat N HN). unfold Rdiv. unfold Rmax.
    destruct (Rle_dec 0 (s t i j * / N - s t i k * / N)) as [A|A]; destruct (Rle_dec 0 (s t i j - s t i k)) as [B|B]; nra.
  Qed.
  Lemma ml_exists : (forall v, length v = em_lv m -> (exists d, (d < em_lv m)%nat /\ nth d v 0 <> 0) -> held_back (em_cats m) (s v) row) ->
    exists t, length t = em_lv m /\ forall t', length t' = em_lv m -> likelihood p t' row <= likelihood p t row.
  Proof using Hs HL.
    intro HB. set (lv := em_lv m) in *. pose proof (proj1 (slopes_library m p s Hs)) as Hm. destruct (scaled_min lv _ (pull_ucont lv) ltac:(intros t L Hx; apply pull_positive; now apply HB)) as (lam & Hlam & Hsc). destruct (total_pull (length row)) as (r & C & Hr & Hb).
    assert (LB : forall t d, length t = lv -> (d < lv)%nat -> ln (likelihood p t row) <= C - r * lam * Rabs (nth d t 0)).
    { intros t d L Hd. rewrite (ln_likelihood lv (em_cats m)) by (auto; intros; now apply (library_pos m p)). specialize (Hb t). assert (lam * Rabs (nth d t 0) <= sumn (length row) (pull t)).
      { destruct (Req_dec (nth d t 0) 0) as [E|E]; [rewrite E, Rabs_R0, Rmult_0_r; apply sumn_nonneg; intros; apply pull_nonneg|]. destruct (Hsc t d L Hd E) as (N & HN & HdN & Hq). rewrite (pull_scaled t N HN) in Hq.
        apply Rle_trans with (lam * N); [apply Rmult_le_compat_l; lra|]. apply (Rmult_le_reg_r (/ N)); [now apply Rinv_0_lt_compat|]. rewrite Rmult_assoc, Rinv_r by lra. lra. }
      assert (r * (lam * Rabs (nth d t 0)) <= r * sumn (length row) (pull t)) by (apply Rmult_le_compat_l; lra). lra. }
    set (l0 := ln (likelihood p (repeat 0 lv) row)). pose proof (Rmult_lt_0_compat _ _ Hr Hlam) as Hrl. set (B := Rmax 0 ((C - l0) / (r * lam))). pose proof (Rmax_l 0 ((C - l0) / (r * lam))) as B0. pose proof (Rmax_r 0 ((C - l0) / (r * lam))) as B1. fold B in B0, B1.
    apply (far_maximum lv _ B B0); [now apply (likelihood_ucont m p)|]. intros t d L Hd HF. specialize (LB t d L Hd). assert (E : (C - l0) / (r * lam) * (r * lam) = C - l0) by (field; lra).
    assert (X : (C - l0) / (r * lam) * (r * lam) <= Rabs (nth d t 0) * (r * lam)) by (apply Rmult_le_compat_r; lra). assert (LL : ln (likelihood p t row) <= l0) by lra.
    destruct (Rle_lt_dec (likelihood p t row) (likelihood p (repeat 0 lv) row)) as [|HC]; [assumption|]. pose proof (ln_increasing _ _ (proj1 (likelihood_le_1 m p (repeat 0 lv) row Hm HL)) HC). unfold l0 in LL. lra.
  Qed.
End Pull.
