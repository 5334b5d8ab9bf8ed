(** The log-probabilities of the library's models lie below their tangents. *)
From Verif Require Import Base BaseFacts RBase RFacts M_Data M_Logit M_Lik M_Est P_Logit P_Logit2 P_Spline4 P_Info2 P_Info3 P_Nest1 S_Logit S_Lik S_Est S_Opt P_Opt1.
Import List.
Local Open Scope R_scope.

(** A function with a tangent at [t], touching it again only where [same]. *)
Definition touches (lv : nat) (f : list R -> R) (t : list R) (same : list R -> Prop) : Prop :=
  exists g, below_tangent lv f t g /\ forall t', length t' = lv -> f t' = plane lv f t g t' -> same t'.
Lemma touches_ext lv f f2 t (same : list R -> Prop) : length t = lv -> (forall s, length s = lv -> f s = f2 s) -> touches lv f t same -> touches lv f2 t same.
Proof.
  intros Ht E (g & [H1 H2] & H3). exists g. unfold below_tangent, plane, partial_is in *. split; [split|].
  - intros d Hd. eapply derivable_ext; [|exact (H1 d Hd)]. intro x. cbv beta. apply E. now rewrite upd_length.
  - intros t' Ht'. rewrite <- !E by assumption. now apply H2.
  - intros t' Ht' Eq. apply H3; [exact Ht'|]. now rewrite !E by assumption.
Qed.
Lemma touches_weaken lv f t (s1 s2 : list R -> Prop) : (forall t', s1 t' -> s2 t') -> touches lv f t s1 -> touches lv f t s2.
Proof. intros H (g & H1 & H2). exists g. split; [exact H1|]. intros t' Ht' E. now apply H, H2. Qed.
Lemma touches_plus lv f f2 t (s1 s2 : list R -> Prop) : touches lv f t s1 -> touches lv f2 t s2 -> touches lv (fun t => f t + f2 t) t (fun t' => s1 t' /\ s2 t').
Proof.
  intros (g & [H1 H2] & H3) (g2 & [J1 J2] & J3). exists (fun d => g d + g2 d). unfold below_tangent, plane, partial_is in *.
  assert (ES : forall t', sumn lv (fun d => (g d + g2 d) * (nth d t' 0 - nth d t 0)) = sumn lv (fun d => g d * (nth d t' 0 - nth d t 0)) + sumn lv (fun d => g2 d * (nth d t' 0 - nth d t 0))).
  { intro t'. rewrite <- sumn_plus. apply sumn_ext. intros; ring. }
  split; [split|].
  - intros d Hd. exact (derivable_pt_lim_plus _ _ _ _ _ (H1 d Hd) (J1 d Hd)).
  - intros t' Ht'. rewrite ES. specialize (H2 t' Ht'). specialize (J2 t' Ht'). lra.
  - intros t' Ht' Eq. rewrite ES in Eq. pose proof (H2 t' Ht'). pose proof (J2 t' Ht'). split; [apply H3|apply J3]; try exact Ht'; lra.
Qed.
Lemma touches_const lv c t : touches lv (fun _ => c) t (fun _ => True).
Proof.
  exists (fun _ => 0). unfold below_tangent, plane, partial_is. split; [split|].
  - intros d _. apply derivable_pt_lim_const.
  - intros t' _. rewrite (sumn_ext lv _ (fun _ => 0)) by (intros; ring). rewrite sumn_0. lra.
  - trivial.
Qed.
Lemma touches_gate lv a c t : length t = lv -> touches lv (fun t => ln (logistic (predictor lv a t + c))) t (fun t' => predictor lv a t' = predictor lv a t).
Proof. intro Ht. destruct (gate_tangent lv a c t Ht) as (g & H1 & H2). exists g. split; [exact H1|]. intros t' Ht' E. specialize (H2 t' Ht' E). cbv zeta beta in H2. lra. Qed.
Lemma logistic_opp x : 1 - logistic x = logistic (- x).
Proof. rewrite logistic_compl. unfold logistic. now rewrite Ropp_involutive. Qed.
Lemma predictor_opp lv a t : predictor lv (fun d => - a d) t = - predictor lv a t.
Proof. unfold predictor. rewrite <- sumn_opp. apply sumn_ext. intros; ring. Qed.
Lemma touches_closed_gate lv a c t : length t = lv -> touches lv (fun t => ln (1 - logistic (predictor lv a t + c))) t (fun t' => predictor lv a t' = predictor lv a t).
Proof.
  intro Ht. apply (touches_weaken lv _ t (fun t' => predictor lv (fun d => - a d) t' = predictor lv (fun d => - a d) t)); [intro t'; rewrite !predictor_opp; lra|].
  apply (touches_ext lv (fun t => ln (logistic (predictor lv (fun d => - a d) t + - c)))); [exact Ht| |now apply touches_gate].
  intros s _. rewrite predictor_opp, logistic_opp. do 2 f_equal. ring.
Qed.

Lemma log_concave_touches lv cats p : (forall t i k, length t = lv -> (k < nth i cats O)%nat -> touches lv (fun t => ln (p t i k)) t (fun t' => forall k', (k' < nth i cats O)%nat -> p t' i k' = p t i k')) -> log_concave lv cats p.
Proof. intros H t i k Ht Hk. exact (H t i k Ht Hk). Qed.

Lemma two_log_concave lv n p (a : nat -> nat -> R) (c : nat -> R) :
  (forall t i k, length t = lv -> p t i k = let q := logistic (predictor lv (a i) t + c i) in if (k =? 1)%nat then q else 1 - q) -> log_concave lv (repeat 2%nat n) p.
Proof.
  intro E. apply log_concave_touches. intros t i k Ht Hk.
  apply (touches_weaken lv _ t (fun t' => length t' = lv /\ predictor lv (a i) t' = predictor lv (a i) t)).
  { intros t' [Ht' Eq] k' _. rewrite !E by assumption. now rewrite Eq. }
  assert (Q : touches lv (fun t => ln (p t i k)) t (fun t' => predictor lv (a i) t' = predictor lv (a i) t)).
  { destruct (k =? 1)%nat eqn:Ek.
    - apply (touches_ext lv (fun t => ln (logistic (predictor lv (a i) t + c i)))); [exact Ht|intros s Hs; rewrite E by exact Hs; now rewrite Ek|now apply touches_gate].
    - apply (touches_ext lv (fun t => ln (1 - logistic (predictor lv (a i) t + c i)))); [exact Ht|intros s Hs; rewrite E by exact Hs; now rewrite Ek|now apply touches_closed_gate]. }
  destruct Q as (g & H1 & H2). exists g. split; [exact H1|]. intros t' Ht' Eq. split; [exact Ht'|now apply H2].
Qed.
Lemma opl_log_concave m : log_concave 1 (repeat 2%nat (opl_items m)) (opl_p m).
Proof.
  apply (two_log_concave 1 _ _ (fun _ _ => 1) (fun i => nth i (opl_b m) 0)). intros t i k _. unfold opl_p, predictor. cbn [sumn]. now rewrite Rplus_0_l, Rmult_1_l.
Qed.
Lemma tpl_log_concave m : log_concave (tpl_lv m) (repeat 2%nat (tpl_items m)) (tpl_p m).
Proof. apply (two_log_concave _ _ _ (fun i => slope (tpl_free m) (tpl_w m) i) (fun i => nth i (tpl_b m) 0)). intros t i k _. unfold tpl_p. reflexivity. Qed.
Lemma soft_log_concave lv cats p (z : nat -> list R -> nat -> R) (b : nat -> nat -> nat -> R) :
  (forall i t t' k, length t = lv -> length t' = lv -> (k < nth i cats O)%nat -> z i t' k = z i t k + sumn lv (fun d => b i k d * (nth d t' 0 - nth d t 0))) ->
  (forall t i k, p t i k = category_probability (nth i cats O) (z i t) k) -> log_concave lv cats p.
Proof.
  intros HA E. apply log_concave_touches. intros t i k Ht Hk.
  destruct (soft_tangent lv (nth i cats O) (z i) (b i) ltac:(lia) (HA i) t k Ht Hk) as [H1 H2].
  apply (touches_ext lv (fun t => ln (category_probability (nth i cats O) (z i t) k))); [exact Ht|intros; now rewrite E|].
  eexists. split; [exact H1|]. intros t' Ht' Eq k' Hk'. rewrite !E. exact (proj2 (H2 t' Ht' Eq) k' Hk').
Qed.
Lemma gpc_log_concave m : log_concave (p_lv m) (p_cats m) (gpc_p m).
Proof.
  apply (soft_log_concave _ _ _ (fun i t k => INR k * predictor (p_lv m) (slope (p_free m) (p_w m) i) t + intercept (p_cats m) (p_b m) i k) (fun i k d => INR k * slope (p_free m) (p_w m) i d)); [|reflexivity].
  intros i t t' k _ _ _. rewrite (predictor_affine _ _ t t'). rewrite (sumn_ext _ (fun d => INR k * slope (p_free m) (p_w m) i d * (nth d t' 0 - nth d t 0)) (fun d => INR k * (slope (p_free m) (p_w m) i d * (nth d t' 0 - nth d t 0)))) by (intros; ring). rewrite sumn_scal. ring.
Qed.
Lemma nrm_log_concave m : log_concave (nrm_lv m) (nrm_cats m) (nrm_p m).
Proof.
  apply (soft_log_concave _ _ _ (fun i t k => predictor (nrm_lv m) (nrm_slope m i k) t + nrm_intercept m i k) (fun i k d => nrm_slope m i k d)); [|reflexivity].
  intros i t t' k _ _ _. rewrite (predictor_affine _ _ t t'). ring.
Qed.
(** ** Graded items *)
Lemma logistic_difference u v : v < u -> logistic u - logistic v = logistic u * (1 - logistic v) * (1 - exp (v - u)).
Proof.
  intro H. rewrite logistic_compl, !logistic_exp. replace (exp (v - u)) with (exp v * / exp u) by (rewrite <- exp_Ropp, <- exp_plus; reflexivity). pose proof (exp_pos u). pose proof (exp_pos v). field. lra.
Qed.
Lemma grm_log_concave m : decreasing_intercepts m -> log_concave (p_lv m) (p_cats m) (grm_p m).
Proof.
  intro Hdec. apply log_concave_touches. intros t i k Ht Hk. set (K := nth i (p_cats m) O) in *. set (lv := p_lv m) in *. set (a := slope (p_free m) (p_w m) i). set (c := intercept (p_cats m) (p_b m) i).
  assert (EK : nth_error (p_cats m) i = Some K) by (apply nth_error_nth_lt; destruct (Nat.lt_ge_cases i (length (p_cats m))) as [|Hge]; [assumption|unfold K in Hk; rewrite nth_overflow in Hk by lia; lia]).
  assert (EP : forall s j, grm_p m s i j = geq_probability K (fun j => predictor lv a s + c j) j - geq_probability K (fun j => predictor lv a s + c j) (S j)) by reflexivity.
  destruct (Nat.eq_dec K 1) as [K1|K1].
  - apply (touches_ext lv (fun _ => ln 1)); [exact Ht| |].
    + intros s _. rewrite EP. unfold geq_probability. replace k with 0%nat by lia. destruct (Nat.ltb_spec 1 K); [lia|]. cbn [Nat.eqb]. f_equal. lra.
    + apply (touches_weaken lv _ t (fun _ => True)); [|apply touches_const]. intros t' _ k' Hk'. rewrite !EP. unfold geq_probability. replace k' with 0%nat by lia. destruct (Nat.ltb_spec 1 K); [lia|]. reflexivity.
  - apply (touches_weaken lv _ t (fun t' => predictor lv a t' = predictor lv a t)); [intros t' E k' _; rewrite !EP; now rewrite E|].
    assert (B : forall s j, predictor lv a s + c j = predictor lv a s + c j) by reflexivity.
    destruct (Nat.eq_dec k 0) as [->|Hk0]; [|destruct (Nat.eq_dec (S k) K) as [HkK|HkK]].
    + apply (touches_ext lv (fun t => ln (1 - logistic (predictor lv a t + c 1%nat)))); [exact Ht| |now apply touches_closed_gate].
      intros s _. rewrite EP. unfold geq_probability. cbn [Nat.eqb]. destruct (Nat.ltb_spec 1 K); [reflexivity|lia].
    + apply (touches_ext lv (fun t => ln (logistic (predictor lv a t + c k)))); [exact Ht| |now apply touches_gate].
      intros s _. rewrite EP. unfold geq_probability. destruct (Nat.eqb_spec k 0); [lia|]. destruct (Nat.ltb_spec k K); [|lia]. cbn [Nat.eqb]. destruct (Nat.ltb_spec (S k) K); [lia|]. f_equal. lra.
    + pose proof (Hdec i K k EK ltac:(lia) ltac:(lia)) as Hd. fold c in Hd.
      apply (touches_ext lv (fun t => (ln (logistic (predictor lv a t + c k)) + ln (1 - logistic (predictor lv a t + c (S k)))) + ln (1 - exp (c (S k) - c k)))); [exact Ht| |].
      * intros s _. rewrite EP. unfold geq_probability. destruct (Nat.eqb_spec k 0); [lia|]. destruct (Nat.ltb_spec k K); [|lia]. cbn [Nat.eqb]. destruct (Nat.ltb_spec (S k) K); [|lia].
        rewrite logistic_difference by lra. replace (predictor lv a s + c (S k) - (predictor lv a s + c k)) with (c (S k) - c k) by ring.
        pose proof (logistic_bounds (predictor lv a s + c k)). pose proof (logistic_bounds (predictor lv a s + c (S k))).
        assert (exp (c (S k) - c k) < 1) by (rewrite <- exp_0; apply exp_increasing; lra). rewrite !ln_mult; try lra. apply Rmult_lt_0_compat; lra.
      * apply (touches_weaken lv _ t (fun t' => (predictor lv a t' = predictor lv a t /\ predictor lv a t' = predictor lv a t) /\ True)); [intros t' [[E _] _]; exact E|].
        apply touches_plus; [|apply touches_const]. apply touches_plus; [now apply touches_gate|now apply touches_closed_gate].
Qed.
