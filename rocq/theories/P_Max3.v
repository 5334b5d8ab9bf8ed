(** Likelihoods along a line, and maxima on the line. *)
From Verif Require Import Base BaseFacts RBase RFacts M_Data M_Logit M_Lik M_Est P_Logit P_Logit2 P_Est2 P_Nest1 P_Info2 P_Info3 P_Spline4 S_Logit S_Lik S_Est S_Opt P_Opt1 P_Opt2 P_Opt3 S_Max P_Max1 P_Max2.
Import List.
Local Open Scope R_scope.

Lemma line_nth lv t v x d : (d < lv)%nat -> nth d (line lv t v x) 0 = nth d t 0 + x * nth d v 0.
Proof. intro H. unfold line. apply (nth_map_seq (fun d => nth d t 0 + x * nth d v 0) lv d 0 H). Qed.
Lemma line_length lv t v x : length (line lv t v x) = lv.
Proof. unfold line. now rewrite map_length, seq_length. Qed.
Lemma line_predictor lv a t v x : predictor lv a (line lv t v x) = predictor lv a t + x * predictor lv a v.
Proof. unfold predictor. rewrite <- sumn_scal, <- sumn_plus. apply sumn_ext. intros d Hd. rewrite line_nth by exact Hd. ring. Qed.
Lemma line_start lv t v : length t = lv -> line lv t v 0 = t.
Proof.
  intro H. apply nth_error_ext. intro j. destruct (Nat.lt_ge_cases j lv) as [Hj|Hj].
  - rewrite (nth_error_nth_lt t j 0) by lia. rewrite (nth_error_nth_lt (line lv t v 0) j 0) by (rewrite line_length; lia). rewrite line_nth by exact Hj. f_equal. ring.
  - rewrite !(proj2 (nth_error_None _ _)); [reflexivity|lia|rewrite line_length; lia].
Qed.
Definition along (p : list R -> nat -> nat -> R) (lv : nat) (t v : list R) (i k : nat) (x : R) : R := p (line lv t v x) i k.

Lemma two_item (z a : R) (q : nat -> R -> R) : (forall k x, (k < 2)%nat -> q k x = if (k =? 1)%nat then logistic (z + x * a) else 1 - logistic (z + x * a)) -> item_ok 2 q (fun k => INR k * a).
Proof.
  intro H. apply (item_ok_ext 2 (soft_q 2 (fun k => INR k * z) (fun k => INR k * a)) _ (fun k => INR k * a)); [|reflexivity|apply soft_item].
  intros k x Hk. rewrite H by exact Hk. rewrite <- category_probability_2 by exact Hk. unfold soft_q, category_probability. destruct k as [|[|k]]; [| |lia]; cbn [sumn Nat.eqb INR]; rewrite ?Rmult_0_l, ?Rmult_1_l, ?Rmult_0_r, ?Rplus_0_r, ?Rplus_0_l; reflexivity.
Qed.
Lemma slopes_library m p s : slopes_of m p s -> library_model m p /\ log_concave (em_lv m) (em_cats m) p.
Proof.
  intros [nanl o Ho Hi|nanl o Ho Hi|nanl o Ho Hi|nanl o Ho Hi Hd|nanl o Ho Hi]; (split; [now constructor|]).
  - exact (opl_log_concave o).
  - exact (tpl_log_concave o).
  - exact (gpc_log_concave o).
  - exact (grm_log_concave o Hd).
  - exact (nrm_log_concave o).
Qed.
Lemma nth_repeat_two n i k : (k < nth i (repeat 2%nat n) O)%nat -> nth i (repeat 2%nat n) O = 2%nat.
Proof. intro H. destruct (Nat.lt_ge_cases i n) as [Hi|Hi]; [apply nth_error_nth; now apply nth_error_repeat_lt|rewrite nth_overflow in H by (rewrite repeat_length; lia); lia]. Qed.
Lemma slopes_item m p s t v i : slopes_of m p s -> item_ok (nth i (em_cats m) O) (along p (em_lv m) t v i) (s v i).
Proof.
  intros [nanl o Ho Hi|nanl o Ho Hi|nanl o Ho Hi|nanl o Ho Hi Hd|nanl o Ho Hi].
  - intros k Hk. assert (E := Hk). cbn [of_sub opl_sub logit_sub em_cats sb_cats] in E. apply nth_repeat_two in E. cbn [of_sub opl_sub logit_sub em_cats sb_cats em_lv sb_lv] in *. rewrite E in *. revert k Hk. apply (two_item (nth 0 t 0 + nth i (opl_b o) 0) (nth 0 v 0)).
    intros k x Hk. unfold along, opl_p. cbv zeta. rewrite line_nth by lia. replace (nth 0 t 0 + x * nth 0 v 0 + nth i (opl_b o) 0) with (nth 0 t 0 + nth i (opl_b o) 0 + x * nth 0 v 0) by ring. reflexivity.
  - intros k Hk. assert (E := Hk). cbn [of_sub tpl_sub logit_sub em_cats sb_cats] in E. apply nth_repeat_two in E. cbn [of_sub tpl_sub logit_sub em_cats sb_cats em_lv sb_lv] in *. rewrite E in *. revert k Hk. set (a := slope (tpl_free o) (tpl_w o) i). apply (two_item (predictor (tpl_lv o) a t + nth i (tpl_b o) 0) (predictor (tpl_lv o) a v)).
    intros k x Hk. unfold along, tpl_p. cbv zeta. fold a. rewrite line_predictor. replace (predictor (tpl_lv o) a t + x * predictor (tpl_lv o) a v + nth i (tpl_b o) 0) with (predictor (tpl_lv o) a t + nth i (tpl_b o) 0 + x * predictor (tpl_lv o) a v) by ring. reflexivity.
  - change (em_cats (of_sub (gpc_sub nanl o))) with (p_cats o). change (em_lv (of_sub (gpc_sub nanl o))) with (p_lv o). set (a := slope (p_free o) (p_w o) i). apply (item_ok_ext _ (soft_q (nth i (p_cats o) O) (fun k => INR k * predictor (p_lv o) a t + intercept (p_cats o) (p_b o) i k) (fun k => INR k * predictor (p_lv o) a v)) _ (fun k => INR k * predictor (p_lv o) a v)); [|reflexivity|apply soft_item].
    intros k x Hk. unfold along, gpc_p, soft_q. fold a. rewrite line_predictor. apply cp_ext; [exact Hk|]. intros j _. ring.
  - change (em_cats (of_sub (grm_sub nanl o))) with (p_cats o). change (em_lv (of_sub (grm_sub nanl o))) with (p_lv o). set (a := slope (p_free o) (p_w o) i). apply (item_ok_ext _ (graded_q (nth i (p_cats o) O) (fun k => predictor (p_lv o) a t + intercept (p_cats o) (p_b o) i k) (predictor (p_lv o) a v)) _ (fun k => INR k * predictor (p_lv o) a v)); [|reflexivity|].
    + intros k x Hk. unfold along, grm_p, graded_q. cbv zeta. fold a. rewrite line_predictor. unfold geq_probability.
      replace (predictor (p_lv o) a t + intercept (p_cats o) (p_b o) i k + x * predictor (p_lv o) a v) with (predictor (p_lv o) a t + x * predictor (p_lv o) a v + intercept (p_cats o) (p_b o) i k) by ring.
      replace (predictor (p_lv o) a t + intercept (p_cats o) (p_b o) i (S k) + x * predictor (p_lv o) a v) with (predictor (p_lv o) a t + x * predictor (p_lv o) a v + intercept (p_cats o) (p_b o) i (S k)) by ring. reflexivity.
    + apply graded_item. intros j H1 H2. assert (EK : nth_error (p_cats o) i = Some (nth i (p_cats o) O)) by (apply nth_error_nth_lt; destruct (Nat.lt_ge_cases i (length (p_cats o))) as [|Hge]; [assumption|rewrite nth_overflow in H2 by lia; lia]).
      pose proof (Hd i _ j EK H1 H2). lra.
  - change (em_cats (of_sub (nrm_sub nanl o))) with (nrm_cats o). change (em_lv (of_sub (nrm_sub nanl o))) with (nrm_lv o). apply (item_ok_ext _ (soft_q (nth i (nrm_cats o) O) (fun k => predictor (nrm_lv o) (nrm_slope o i k) t + nrm_intercept o i k) (fun k => predictor (nrm_lv o) (nrm_slope o i k) v)) _ (fun k => predictor (nrm_lv o) (nrm_slope o i k) v)); [|reflexivity|apply soft_item].
    intros k x Hk. unfold along, nrm_p, soft_q. apply cp_ext; [exact Hk|]. intros j _. rewrite line_predictor. ring.
Qed.
