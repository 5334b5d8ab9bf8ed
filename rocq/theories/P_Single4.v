(** The two-parameter model in single precision, and the sum over a respondent's answers. *)
From Coq Require Import Reals ZArith List Lia Lra.
From Verif Require Import Base BaseFacts RBase RFacts M_Data M_Logit M_Lik M_Est M_Single P_Single1 P_Single2 P_Single3.
Import ListNotations.
Import M_Est List.
Local Open Scope R_scope.

Lemma softplus_close a b : Rabs (ln (1 + exp a) - ln (1 + exp b)) <= Rabs (a - b).
Proof.
  assert (G : forall p q, q <= p -> 0 <= ln (1 + exp p) - ln (1 + exp q) <= p - q).
  { clear a b. intros a b L. pose proof (exp_pos a). pose proof (exp_pos b). split.
    - pose proof (exp_le b a L). destruct (Req_dec (exp a) (exp b)) as [E|N]; [rewrite E; lra|].
      pose proof (ln_increasing (1 + exp b) (1 + exp a) ltac:(lra) ltac:(lra)). lra.
    - assert (Q : 1 + exp a <= exp (a - b) * (1 + exp b)).
      { rewrite Rmult_plus_distr_l, Rmult_1_r, <- exp_plus. replace (a - b + b) with a by ring.
        pose proof (exp_le 0 (a - b) ltac:(lra)) as W. rewrite exp_0 in W. lra. }
      assert (Q2 : ln (1 + exp a) <= ln (exp (a - b) * (1 + exp b))).
      { destruct Q as [Q|Q]; [apply Rlt_le, ln_increasing; lra|rewrite Q; lra]. }
      rewrite ln_mult, ln_exp in Q2 by (try apply exp_pos; lra). lra. }
  destruct (Rle_lt_dec b a) as [L|L].
  - destruct (G a b L). rewrite !Rabs_pos_eq by lra. lra.
  - destruct (G b a ltac:(lra)).
    rewrite (Rabs_minus_sym (ln (1 + exp a))), (Rabs_minus_sym a), !Rabs_pos_eq by lra. lra.
Qed.
(** The logarithms of the two probabilities. *)
Lemma log_right x : ln (logistic x) = x - ln (1 + exp x).
Proof.
  pose proof (exp_pos x). assert (E : logistic x = exp x / (1 + exp x)).
  { unfold logistic. rewrite exp_Ropp. field. split; lra. }
  rewrite E. unfold Rdiv. rewrite ln_mult by (try apply Rinv_0_lt_compat; lra). rewrite ln_Rinv, ln_exp by lra. ring.
Qed.
Lemma log_wrong x : ln (1 - logistic x) = - ln (1 + exp x).
Proof.
  pose proof (exp_pos x). assert (E : 1 - logistic x = / (1 + exp x)).
  { unfold logistic. rewrite exp_Ropp. field. split; lra. }
  rewrite E. apply ln_Rinv. lra.
Qed.

Section Single.
Variable A : arith.
Hypothesis SPA : single_precision A.

Lemma tpl_row_close w b k : (k < 2)%nat -> Rabs (w + b) <= 1000000000000000000000000000000000000 ->
  exists v, log_softmax32 A (tpl_row32 A w b) k = Some (Fin v) /\ v <= 0 /\
    Rabs (v - ln (if (k =? 0)%nat then 1 - logistic (w + b) else logistic (w + b)))
      <= (8 * Rabs (w + b) + 66) / 8388608.
Proof using SPA.
  intros Hk Hb. pose proof tiny as T0. pose proof tiny_pos as T1. unfold tpl_row32, add32. cbn [fadd].
  assert (T : Rabs (w + b) < top) by (eapply small_top; [exact Hb|lra]).
  rewrite round_fin by exact T. pose proof (sp_nearest A SPA _ T) as N. set (z := round A (w + b)) in *.
  pose proof (nearest_error _ _ T N) as E. pose proof (nearest_double _ _ N) as Dz.
  change [Some (Fin 0); Some (Fin z)] with (map Some [Fin 0; Fin z]).
  pose proof (Rle_abs z) as Z1. pose proof (Rle_abs (- z)) as Z2. rewrite Rabs_Ropp in Z2.
  assert (F : Forall bounded_entry [Fin 0; Fin z]).
  { constructor; [cbn; rewrite Rabs_R0; lra|]. constructor; [cbn; lra|constructor]. }
  assert (Hn : (Z.of_nat (length [Fin 0; Fin z]) <= 2 ^ 24)%Z) by (vm_compute; discriminate).
  assert (P : forall zk, nth_error [Fin 0; Fin z] k = Some (Fin zk) ->
    forall y, In (Fin y) [Fin 0; Fin z] -> y - zk <= 2 * Rabs (w + b)).
  { intros zk Ez y Iy. pose proof (Rabs_pos (w + b)).
    destruct k as [|[|k]]; [| |lia]; cbn in Ez; injection Ez as <-;
    destruct Iy as [Ey|[Ey|[]]]; injection Ey as <-; lra. }
  pose proof (softplus_close z (w + b)) as Sp. rewrite (Rabs_minus_sym z) in Sp.
  assert (E' := E). rewrite Rabs_minus_sym in E'. apply abs_between in E. apply abs_between in Sp as Sp'.
  assert (Sp2 := Rle_trans _ _ _ Sp E'). apply abs_between in Sp2. clear Sp Sp'.
  destruct k as [|[|k]]; [| |lia]; cbn [Nat.eqb].
  - destruct (row_close A SPA [Fin 0; Fin z] 0 0 (2 * Rabs (w + b)) F eq_refl (P 0 eq_refl) Hn) as (v & x & -> & Ex & Hv & C).
    exists v. split; [reflexivity|]. split; [exact Hv|]. rewrite log_wrong.
    unfold log_softmax_at in Ex. cbn in Ex. injection Ex as <-. rewrite exp_0, Rplus_0_r in C.
    cbn [length INR] in C. apply abs_between in C. apply Rabs_le. unfold Rdiv in *. lra.
  - destruct (row_close A SPA [Fin 0; Fin z] 1 z (2 * Rabs (w + b)) F eq_refl (P z eq_refl) Hn) as (v & x & -> & Ex & Hv & C).
    exists v. split; [reflexivity|]. split; [exact Hv|]. rewrite log_right.
    unfold log_softmax_at in Ex. cbn in Ex. injection Ex as <-. rewrite exp_0, Rplus_0_r in C.
    cbn [length INR] in C. apply abs_between in C. apply Rabs_le. unfold Rdiv in *. lra.
Qed.

(** ** A respondent's answers *)
Definition below (a : fl) : Prop := a = Some NInf \/ exists v, a = Some (Fin v) /\ v <= 0.
Lemma add_below a b : below a -> below b -> below (add32 A a b) /\ (a = Some NInf \/ b = Some NInf -> add32 A a b = Some NInf).
Proof using SPA.
  intros [-> |(x & -> & Hx)] [-> |(y & -> & Hy)]; unfold add32; cbn [fadd]; try (split; [left; reflexivity|reflexivity]).
  split; [|intros [E|E]; discriminate]. unfold fround.
  destruct (Rlt_dec (Rabs (x + y)) top) as [T|T].
  - right. exists (round A (x + y)). split; [reflexivity|].
    apply (nearest_le _ _ _ (sp_nearest A SPA _ T) single_zero). lra.
  - left. unfold fpos. destruct (Rlt_dec 0 (x + y)); [lra|reflexivity].
Qed.
Lemma sum_below l : forall a, below a -> Forall below l ->
  below (fold_left (add32 A) l a) /\ (a = Some NInf \/ In (Some NInf) l -> fold_left (add32 A) l a = Some NInf).
Proof using SPA.
  induction l as [|b l IH]; intros a Ha F; [split; [exact Ha|intros [E|[]]; exact E]|]. cbn [fold_left].
  destruct (add_below a b Ha (Forall_inv F)) as [B1 B2]. destruct (IH _ B1 (Forall_inv_tail F)) as [I1 I2].
  split; [exact I1|]. intros H. apply I2. destruct H as [-> |[-> |I]]; [left; apply B2; left|left; apply B2; right|right; exact I]; reflexivity.
Qed.
Lemma sum_lost l : Forall below l -> In (Some NInf) l -> sum32 A l = Some NInf.
Proof using SPA.
  intros F I. apply (sum_below l (Some (Fin 0))); [right; exists 0; split; [reflexivity|lra]|exact F|right; exact I].
Qed.
End Single.
