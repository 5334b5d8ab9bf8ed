(** Graded items along a line. *)
From Verif Require Import Base BaseFacts RBase RFacts M_Data M_Logit M_Lik M_Est P_Logit P_Info3 P_Spline4 P_BGrad2 S_Logit S_Lik S_Est S_Opt P_Opt1 P_Opt2 S_Max P_Max1.
Import List.
Local Open Scope R_scope.

Lemma logistic_le_exp x : logistic x <= exp x.
Proof. rewrite logistic_exp. pose proof (exp_pos x). apply (Rmult_le_reg_r (1 + exp x)); [lra|]. unfold Rdiv. rewrite Rmult_assoc, Rinv_l by lra. nra. Qed.
Lemma logistic_continuity f : continuity f -> continuity (fun x => logistic (f x)).
Proof.
  intros H x. apply (continuity_pt_comp f logistic); [apply H|]. apply derivable_continuous_pt. pose proof (logistic_affine_derivative (f x) 1 (f x)) as D. eexists. apply (derivable_ext (fun y => logistic (f x + 1 * (y - f x)))); [intro y; f_equal; ring|exact D].
Qed.
Section Graded.
  Variables (K : nat) (c : nat -> R) (a : R).
  Hypothesis (Hc : forall j, (1 <= j)%nat -> (S j < K)%nat -> c (S j) < c j).
  Definition graded_q (k : nat) (x : R) : R := geq_probability K (fun j => c j + x * a) k - geq_probability K (fun j => c j + x * a) (S k).
  Lemma geq_range k x : 0 <= geq_probability K (fun j => c j + x * a) k <= 1.
  Proof using Type. unfold geq_probability. destruct (k =? 0)%nat; [lra|]. destruct (k <? K)%nat; [|lra]. pose proof (logistic_bounds (c k + x * a)). lra. Qed.
  Lemma geq_decreases k x : (k < K)%nat -> geq_probability K (fun j => c j + x * a) (S k) < geq_probability K (fun j => c j + x * a) k.
  Proof using Hc.
    intro Hk. unfold geq_probability. cbn [Nat.eqb]. destruct (Nat.eqb_spec k 0) as [->|Hk0].
    - destruct (Nat.ltb_spec 1 K); [|lra]. pose proof (logistic_bounds (c 1%nat + x * a)). lra.
    - destruct (Nat.ltb_spec k K); [|lia]. destruct (Nat.ltb_spec (S k) K); [|pose proof (logistic_bounds (c k + x * a)); lra]. apply logistic_incr. pose proof (Hc k ltac:(lia) ltac:(lia)). lra.
  Qed.
  Lemma graded_low k x : (1 <= k)%nat -> (k < K)%nat -> ln (graded_q k x) <= c k + a * x.
  Proof using Hc.
    intros H1 Hk. rewrite <- (ln_exp (c k + a * x)). apply ln_le; [unfold graded_q; pose proof (geq_decreases k x Hk); lra|]. unfold graded_q. pose proof (geq_range (S k) x). unfold geq_probability at 1. destruct (Nat.eqb_spec k 0); [lia|]. destruct (Nat.ltb_spec k K); [|lia].
    pose proof (logistic_le_exp (c k + x * a)). rewrite (Rmult_comm a x). lra.
  Qed.
  Lemma graded_high k x : (S k < K)%nat -> ln (graded_q k x) <= - c (S k) - a * x.
  Proof using Hc.
    intros Hk. rewrite <- (ln_exp (- c (S k) - a * x)). apply ln_le; [unfold graded_q; pose proof (geq_decreases k x ltac:(lia)); lra|]. unfold graded_q. pose proof (geq_range k x). unfold geq_probability at 2. cbn [Nat.eqb]. destruct (Nat.ltb_spec (S k) K); [|lia].
    pose proof (logistic_le_exp (- (c (S k) + x * a))) as B. pose proof (logistic_opp (c (S k) + x * a)). replace (- c (S k) - a * x) with (- (c (S k) + x * a)) by ring. lra.
  Qed.
  Lemma graded_first x : (2 <= K)%nat -> graded_q 0 x = 1 - logistic (c 1%nat + x * a).
  Proof using Type. intro HK. unfold graded_q, geq_probability. cbn [Nat.eqb]. destruct (Nat.ltb_spec 1 K); [reflexivity|lia]. Qed.
  Lemma graded_last x : (2 <= K)%nat -> graded_q (K - 1) x = logistic (c (K - 1)%nat + x * a).
  Proof using Type. intro HK. unfold graded_q, geq_probability. cbn [Nat.eqb]. destruct (Nat.eqb_spec (K - 1) 0); [lia|]. destruct (Nat.ltb_spec (K - 1) K); [|lia]. destruct (Nat.ltb_spec (S (K - 1)) K); [lia|]. lra. Qed.
  Lemma graded_item : item_ok K graded_q (fun k => INR k * a).
  Proof using Hc.
    assert (HN : forall j, (1 <= j)%nat -> 1 <= INR j) by (intros j Hj; replace 1 with (INR 1) by reflexivity; now apply le_INR).
    assert (HO : forall j k, INR j * a < INR k * a -> (0 < a /\ (j < k)%nat) \/ (a < 0 /\ (k < j)%nat)).
    { intros j k H. destruct (Rtotal_order a 0) as [Ha|[Ha|Ha]]; [right|exfalso; nra|left]; (split; [exact Ha|]).
      - apply INR_lt. nra.
      - apply INR_lt. nra. }
    assert (HU : forall k, (k < K)%nat -> (forall j, (j < K)%nat -> INR j * a <= INR k * a) -> K = 1%nat \/ a = 0 \/ (2 <= K)%nat /\ ((0 < a /\ k = (K - 1)%nat) \/ (a < 0 /\ k = 0%nat))).
    { intros k Hk H. destruct (Nat.eq_dec K 1) as [|HK]; [now left|]. destruct (Rtotal_order a 0) as [Ha|[Ha|Ha]]; [right; right; split; [lia|right; split; [exact Ha|]]|now (right; left)|right; right; split; [lia|left; split; [exact Ha|]]].
      - specialize (H 0%nat ltac:(lia)). cbn [INR] in H. destruct k as [|k]; [reflexivity|]. pose proof (HN (S k) ltac:(lia)). nra.
      - specialize (H (K - 1)%nat ltac:(lia)). assert (INR (K - 1) <= INR k) as HI by nra. apply INR_le in HI. lia. }
    assert (HD : forall k, (k < K)%nat -> (forall j, (j < K)%nat -> INR k * a <= INR j * a) -> K = 1%nat \/ a = 0 \/ (2 <= K)%nat /\ ((a < 0 /\ k = (K - 1)%nat) \/ (0 < a /\ k = 0%nat))).
    { intros k Hk H. destruct (Nat.eq_dec K 1) as [|HK]; [now left|]. destruct (Rtotal_order a 0) as [Ha|[Ha|Ha]]; [right; right; split; [lia|left; split; [exact Ha|]]|now (right; left)|right; right; split; [lia|right; split; [exact Ha|]]].
      - specialize (H (K - 1)%nat ltac:(lia)). assert (INR (K - 1) <= INR k) as HI by nra. apply INR_le in HI. lia.
      - specialize (H 0%nat ltac:(lia)). cbn [INR] in H. destruct k as [|k]; [reflexivity|]. pose proof (HN (S k) ltac:(lia)). nra. }
    assert (H1 : K = 1%nat -> forall k x, (k < K)%nat -> graded_q k x = 1) by (intros E k x Hk; unfold graded_q, geq_probability; replace k with 0%nat by lia; cbn [Nat.eqb]; destruct (Nat.ltb_spec 1 K); [lia|lra]).
    assert (H0 : a = 0 -> forall k x y, graded_q k x = graded_q k y) by (intros E k x y; unfold graded_q, geq_probability; rewrite E, !Rmult_0_r; reflexivity).
    intros k Hk. split; [|split; [|split; [|split; [|split; [|split]]]]].
    - intro x. unfold graded_q. pose proof (geq_decreases k x Hk). pose proof (geq_range k x). pose proof (geq_range (S k) x). lra.
    - assert (CG : forall j, continuity (fun x => geq_probability K (fun i => c i + x * a) j)).
      { intro j. unfold geq_probability. destruct (j =? 0)%nat; [intro x; apply continuity_pt_const; intros u v; reflexivity|]. destruct (j <? K)%nat; [apply logistic_continuity; apply affine_continuity|intro x; apply continuity_pt_const; intros u v; reflexivity]. }
      intro x. exact (continuity_pt_minus _ _ x (CG k x) (CG (S k) x)).
    - intros j Hj Hs. destruct (HO k j Hs) as [[Ha Hl]|[Ha Hl]].
      + exists a, (- c (S k)). split; [exact Ha|]. intro x. pose proof (graded_high k x ltac:(lia)). lra.
      + exists (- a), (c k). split; [lra|]. intro x. pose proof (graded_low k x ltac:(lia) Hk). lra.
    - intros j Hj Hs. destruct (HO j k Hs) as [[Ha Hl]|[Ha Hl]].
      + exists a, (c k). split; [exact Ha|]. intro x. pose proof (graded_low k x ltac:(lia) Hk). lra.
      + exists (- a), (- c (S k)). split; [lra|]. intro x. pose proof (graded_high k x ltac:(lia)). lra.
    - intros Hs x y Hxy. destruct (HU k Hk Hs) as [E|[E|[HK [[Ha ->]|[Ha ->]]]]].
      + rewrite !H1 by assumption. split; [lra|]. intros (j & Hj & Hl). replace j with 0%nat in Hl by lia. replace k with 0%nat in Hl by lia. lra.
      + rewrite (H0 E k x y). split; [lra|]. intros (j & Hj & Hl). rewrite E in Hl. lra.
      + rewrite !graded_last by exact HK. assert (logistic (c (K - 1)%nat + x * a) < logistic (c (K - 1)%nat + y * a)) by (apply logistic_incr; nra). lra.
      + rewrite !graded_first by exact HK. assert (logistic (c 1%nat + y * a) < logistic (c 1%nat + x * a)) by (apply logistic_incr; nra). lra.
    - intros Hs x y Hxy. destruct (HD k Hk Hs) as [E|[E|[HK [[Ha ->]|[Ha ->]]]]].
      + rewrite !H1 by assumption. split; [lra|]. intros (j & Hj & Hl). replace j with 0%nat in Hl by lia. replace k with 0%nat in Hl by lia. lra.
      + rewrite (H0 E k x y). split; [lra|]. intros (j & Hj & Hl). rewrite E in Hl. lra.
      + rewrite !graded_last by exact HK. assert (logistic (c (K - 1)%nat + y * a) < logistic (c (K - 1)%nat + x * a)) by (apply logistic_incr; nra). lra.
      + rewrite !graded_first by exact HK. assert (logistic (c 1%nat + x * a) < logistic (c 1%nat + y * a)) by (apply logistic_incr; nra). lra.
    - intros j Hj Hs x y H. assert (HK : (2 <= K)%nat) by (destruct (Nat.eq_dec K 1) as [E|]; [exfalso; apply Hs; now replace j with k by lia|lia]).
      assert (Ha : a <> 0) by (intro E; apply Hs; rewrite E; ring). specialize (H 0%nat ltac:(lia)). rewrite !graded_first in H by exact HK.
      assert (E : c 1%nat + x * a = c 1%nat + y * a) by (apply logistic_inj; lra). apply (Rmult_eq_reg_r a); [lra|exact Ha].
  Qed.
End Graded.
