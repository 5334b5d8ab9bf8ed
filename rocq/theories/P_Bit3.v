(** The entropy of a logistic item. *)
From Coq Require Import Sorted.
From Verif Require Import Base BaseFacts RBase RFacts P_Pop6 M_Est M_Stat M_Grid S_Grid P_Grid1 S_Mass P_Mass P_Iw3 S_Bit P_Bit1 P_Bit2.
Local Open Scope R_scope.

Definition Hl (x : R) : R := bits [1 - logistic x; logistic x].
Lemma Hl_closed x : Hl x = / ln 2 * ((1 - logistic x) * x + ln (1 + exp (- x))).
Proof.
  unfold Hl, bits. pose proof (logistic_bounds x) as B. cbn [map rsum]. destruct (Req_EM_T (1 - logistic x) 0); [lra|]. destruct (Req_EM_T (logistic x) 0); [lra|].
  pose proof (exp_pos (- x)) as Hx. assert (E1 : ln (logistic x) = - ln (1 + exp (- x))) by (unfold logistic; apply ln_Rinv; lra).
  assert (E2 : ln (1 - logistic x) = - x - ln (1 + exp (- x))).
  { replace (1 - logistic x) with (exp (- x) * / (1 + exp (- x))) by (unfold logistic; field; lra). rewrite ln_mult by (auto; apply Rinv_0_lt_compat; lra). rewrite ln_exp, ln_Rinv by lra. ring. }
  rewrite E1, E2. pose proof ln_lt_2. field. lra.
Qed.
Lemma ln2_pos : 0 < ln 2.
Proof. pose proof ln_lt_2. lra. Qed.
Definition hl (x : R) : R := - (x * (logistic x * (1 - logistic x)) / ln 2).
Lemma Hl_deriv x : derivable_pt_lim Hl x (hl x).
Proof.
  assert (D : derivable_pt_lim (fun u => / ln 2 * ((1 - logistic u) * u + ln (1 + exp (- u)))) x (/ ln 2 * (((0 - logistic x * (1 - logistic x)) * x + (1 - logistic x) * 1) + / (1 + exp (- x)) * (0 + exp (- x) * -1)))).
  { apply (derivable_pt_lim_scal (fun u => (1 - logistic u) * u + ln (1 + exp (- u)))). apply (derivable_pt_lim_plus (fun u => (1 - logistic u) * u) (fun u => ln (1 + exp (- u)))).
    - apply (derivable_pt_lim_mult (fun u => 1 - logistic u) id); [|apply derivable_pt_lim_id]. apply (derivable_pt_lim_minus (fun _ => 1) logistic); [apply derivable_pt_lim_const|apply logistic_derivative].
    - pose proof (exp_pos (- x)). apply (derivable_pt_lim_comp (fun u => 1 + exp (- u)) ln x (0 + exp (- x) * -1) (/ (1 + exp (- x)))); [|apply derivable_pt_lim_ln; lra].
      apply (derivable_pt_lim_plus (fun _ => 1) (fun u => exp (- u))); [apply derivable_pt_lim_const|]. apply (derivable_pt_lim_comp (fun u => - u) exp x (-1) (exp (- x))); [|apply derivable_pt_lim_exp].
      replace (-1) with (- 1) by ring. apply (derivable_pt_lim_opp id x 1). apply derivable_pt_lim_id. }
  replace (/ ln 2 * _) with (hl x) in D.
  - intros eps He. destruct (D eps He) as [d Hd]. exists d. intros k Hk Hs. rewrite !Hl_closed. apply Hd; auto.
  - unfold hl, logistic. pose proof (exp_pos (- x)). pose proof ln2_pos. field. lra.
Qed.
Lemma logistic_cont x : continuity_pt logistic x.
Proof. apply derivable_continuous_pt. exists (logistic x * (1 - logistic x)). apply logistic_derivative. Qed.
Lemma hl_cont x : continuity_pt hl x.
Proof.
  assert (C : continuity_pt (fun u => (- / ln 2) * (u * (logistic u * (1 - logistic u)))) x).
  { apply (continuity_pt_scal (fun u => u * (logistic u * (1 - logistic u)))). apply (continuity_pt_mult id (fun u => logistic u * (1 - logistic u))); [apply derivable_continuous_pt, derivable_pt_id|].
    apply (continuity_pt_mult logistic (fun u => 1 - logistic u)); [apply logistic_cont|]. apply (continuity_pt_minus (fun _ => 1) logistic); [apply continuity_pt_const; intros ? ?; reflexivity|apply logistic_cont]. }
  assert (E : forall u, (- / ln 2) * (u * (logistic u * (1 - logistic u))) = hl u) by (intro u; unfold hl; pose proof ln2_pos; field; lra).
  intros eps He. destruct (C eps He) as (al & Ha & Hd). exists al. split; [exact Ha|]. intros y Hy. rewrite <- !E. now apply Hd.
Qed.
Lemma hl_sign x : (x <= 0 -> 0 <= hl x) /\ (0 <= x -> hl x <= 0) /\ (x <> 0 -> hl x <> 0).
Proof.
  pose proof (logistic_bounds x) as B. pose proof ln2_pos as L. assert (P : 0 < logistic x * (1 - logistic x) / ln 2) by (apply Rdiv_lt_0_compat; [apply Rmult_lt_0_compat; lra|exact L]).
  assert (E : hl x = - x * (logistic x * (1 - logistic x) / ln 2)) by (unfold hl; field; lra). set (c := logistic x * (1 - logistic x) / ln 2) in *. rewrite E. split; [|split]; intro H.
  - apply Rmult_le_pos; lra.
  - assert (0 <= x * c) by (apply Rmult_le_pos; lra). lra.
  - apply Rmult_integral_contrapositive. lra.
Qed.
Lemma Hl_flip x : Hl (- x) = Hl x.
Proof.
  rewrite !Hl_closed. pose proof (exp_pos x). pose proof (exp_pos (- x)). f_equal. rewrite Ropp_involutive.
  assert (E : ln (1 + exp x) = x + ln (1 + exp (- x))). { rewrite <- (ln_exp x) at 2. rewrite <- ln_mult by lra. f_equal. rewrite Rmult_plus_distr_l, <- exp_plus, Rplus_opp_r, exp_0. ring. }
  rewrite E. unfold logistic. rewrite Ropp_involutive. rewrite exp_Ropp. field. rewrite exp_Ropp in *. split; lra.
Qed.
Lemma Hl_strict a b : a < b -> b <= 0 -> Hl a < Hl b.
Proof.
  intros Hab Hb. destruct (MVT_cor2 Hl hl a b Hab ltac:(intros; apply Hl_deriv)) as (c & Ec & Hc). destruct (hl_sign c) as (S1 & _ & S3). specialize (S1 ltac:(lra)). specialize (S3 ltac:(lra)).
  assert (0 < hl c * (b - a)) by (apply Rmult_lt_0_compat; lra). lra.
Qed.
(** The documented integral for one item from [a] to [c] across its maximum at [- d]. *)
Lemma hump d a c : a <= - d <= c -> absolute_integral 1 (fun _ v => hl (v + d)) a c (2 * Hl 0 - Hl (a + d) - Hl (c + d)).
Proof.
  intros [H1 H2]. unfold absolute_integral.
  assert (DS : forall v, derivable_pt_lim (fun u => Hl (u + d)) v (hl (v + d))).
  { intro v. replace (hl (v + d)) with (hl (v + d) * (1 + 0)) by ring. apply (derivable_pt_lim_comp (fun u => u + d) Hl v (1 + 0) (hl (v + d))); [|apply Hl_deriv]. apply (derivable_pt_lim_plus id (fun _ => d)); [apply derivable_pt_lim_id|apply derivable_pt_lim_const]. }
  replace (2 * Hl 0 - Hl (a + d) - Hl (c + d)) with ((Hl 0 - Hl (a + d)) + (Hl 0 - Hl (c + d))) by ring. apply (area_join _ a (- d) c).
  - exists (fun v => Hl (v + d)). split; [|now rewrite Rplus_opp_l]. apply antiderivative_of; [exact H1|]. intros v Hv. cbn [sumn]. rewrite Rplus_0_l, Rabs_right; [apply DS|]. apply Rle_ge. apply hl_sign. lra.
  - exists (fun v => - Hl (v + d)). split; [|rewrite Rplus_opp_l; ring]. apply antiderivative_of; [exact H2|]. intros v Hv. cbn [sumn]. rewrite Rplus_0_l, Rabs_left1 by (apply hl_sign; lra). apply (derivable_pt_lim_opp (fun u => Hl (u + d))). apply DS.
Qed.
Lemma opl_smooth b j medians lo hi : j = O -> medians <> [] -> smooth_on (length b) (fun v => opl_bits b (upd j v medians)) (fun i v => hl (v + nth i b 0)) lo hi.
Proof.
  intros -> Hmed. split; [intro v; apply map_length|]. intros i Hi v Hv. destruct medians as [|m0 medians]; [congruence|]. unfold opl_bits. cbn [upd nth]. split.
  - assert (E : forall u, nth i (map (fun d => bits [1 - logistic (u + d); logistic (u + d)]) b) 0 = Hl (u + nth i b 0)).
    { intro u. rewrite (nth_indep _ 0 (Hl (u + 0))) by now rewrite map_length. exact (map_nth (fun d => Hl (u + d)) b 0 i). }
    assert (D : derivable_pt_lim (fun u => Hl (u + nth i b 0)) v (hl (v + nth i b 0))).
    { replace (hl (v + nth i b 0)) with (hl (v + nth i b 0) * (1 + 0)) by ring. apply (derivable_pt_lim_comp (fun u => u + nth i b 0) Hl v (1 + 0) (hl (v + nth i b 0))); [|apply Hl_deriv]. apply (derivable_pt_lim_plus id (fun _ => nth i b 0)); [apply derivable_pt_lim_id|apply derivable_pt_lim_const]. }
    intros eps He. destruct (D eps He) as [dl Hd]. exists dl. intros k Hk Hs. rewrite !E. now apply Hd.
  - apply (continuity_pt_comp (fun u => u + nth i b 0) hl); [|apply hl_cont]. apply (continuity_pt_plus id (fun _ => nth i b 0)); [apply derivable_continuous_pt, derivable_pt_id|apply continuity_pt_const; intros ? ?; reflexivity].
Qed.
