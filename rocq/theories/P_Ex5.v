(** Existence of the marginal estimates of the one-parameter model. *)
From Verif Require Import Base BaseFacts RBase RFacts M_Data M_Logit M_Lik M_Est M_Opt M_Jml P_Logit P_Logit2 P_Est2 P_Info2 P_Opt1 P_Opt2 P_Opt3 P_Scoreq P_Item1 P_Item2 P_Item3 P_Max1 P_Max3 P_Max4 P_Max5 P_Max6 P_Max7 P_Ex1 P_Ex2 P_Ex3 P_Ex4 S_Logit S_Lik S_Est S_Opt S_Max S_Item S_Ex.
Import List.
Local Open Scope R_scope.

(** The product of positive functions, written with logarithms. *)
Lemma ucont_product n N (m : nat -> list R -> R) : (forall r, (r < N)%nat -> ucont n (m r)) -> (forall r v, (r < N)%nat -> length v = n -> 0 < m r v) -> ucont n (fun v => exp (sumn N (fun r => ln (m r v)))).
Proof.
  induction N as [|N IH]; intros HU HP; [exact (ucont_const n (exp 0))|]. apply (ucont_ext n (fun v => exp (sumn N (fun r => ln (m r v))) * m N v)).
  - intros v Lv. cbn [sumn]. rewrite exp_plus, exp_ln by (apply HP; [lia|exact Lv]). reflexivity.
  - apply ucont_mult; [apply IH; intros; [apply HU|apply HP]; auto; lia|apply HU; lia].
Qed.
Lemma ln_le_inv a b : 0 < a -> ln a <= ln b -> 0 < b -> a <= b.
Proof. intros Ha H Hb. apply Rnot_lt_le. intro X. apply ln_increasing in X; [lra|exact Hb]. Qed.

Section RASCH.
Variables (nanl : Z) (items : nat) (data : list (list cell)) (points : list (list R)) (weights : list R).
Hypotheses (HI : (0 < items)%nat) (HD : legal_data (repeat 2%nat items) data) (HP : points <> []) (HL : length weights = length points) (HT : Forall (fun t => length t = 1%nat) points) (HW : Forall (fun w => 0 < w) weights).
Let F := opl_family nanl items.
Let HF : parametric F := par_opl nanl items HI.
Let N := length data.
Let Q := length points.
Let m (r : nat) (b : list R) : R := marginal_in F points weights (nth r data []) b.
Definition answers (i a r : nat) : Prop := (r < N)%nat /\ answer (nth i (nth r data []) None) = Some a.
Definition both_used (i : nat) : Prop := (exists r, answers i 1 r) /\ exists r, answers i 0 r.
Definition answersb (i a r : nat) : bool := match answer (nth i (nth r data []) None) with Some k => (k =? a)%nat | None => false end.
Definition usedb (i a : nat) : bool := existsb (answersb i a) (seq 0 N).
Lemma usedb_iff i a : usedb i a = true <-> exists r, answers i a r.
Proof using Type.
  clear.
  unfold usedb. rewrite existsb_exists. split.
  - intros (r & Hr & E). apply in_seq in Hr. exists r. split; [lia|]. unfold answersb in E. destruct (answer _) as [k|]; [|discriminate]. apply Nat.eqb_eq in E. now subst.
  - intros (r & Hr & E). exists r. split; [apply in_seq; lia|]. unfold answersb. rewrite E. apply Nat.eqb_refl.
Qed.
Definition bothb (i : nat) : bool := usedb i 1 && usedb i 0.
Lemma bothb_iff i : bothb i = true <-> both_used i.
Proof using Type. clear. unfold bothb, both_used. rewrite Bool.andb_true_iff, !usedb_iff. reflexivity. Qed.
Lemma rk r : (r < N)%nat -> legal_row (f_cats F) (nth r data []).
Proof using HD. intro Hr. exact (row_ok items data HD r Hr). Qed.
Lemma mpos r b : (r < N)%nat -> length b = items -> 0 < m r b.
Proof using HF HD HP HL HT HW. intros Hr Lb. apply (marginal_pos F HF); auto. now apply rk. Qed.
Lemma lik_ucont t row : ucont items (likelihood_in F t row).
Proof using Type.
  clear.
  clear. unfold likelihood_in, likelihood. apply (ucont_rprod items (fun b i c => match answer c with None => 1 | Some k => f_p F b t i k end)). intros i c _. destruct (answer c) as [k|]; [|apply ucont_const]. unfold F. cbn [opl_family f_p]. unfold opl_p. cbv zeta. cbn [opl_of opl_b].
  assert (U : ucont items (fun b => logistic (nth 0 t 0 + nth i b 0))) by (apply ucont_logistic, ucont_plus; [apply ucont_const|apply ucont_nth]). destruct (k =? 1)%nat; [exact U|]. apply ucont_minus; [apply ucont_const|exact U].
Qed.
Lemma mucont r : ucont items (m r).
Proof using Type. clear. unfold m, marginal_in. apply (ucont_sumn items (length points) (fun q b => nth q weights 0 * likelihood_in F (nth q points []) (nth r data []) b)). intros q _. apply ucont_scal, lik_ucont. Qed.
(** One answer bounds the likelihood of the row. *)
Lemma lik_answer t row i a b : length t = 1%nat -> length b = items -> legal_row (f_cats F) row -> answer (nth i row None) = Some a -> likelihood_in F t row b <= exp (if (a =? 1)%nat then nth 0 t 0 + nth i b 0 else - nth 0 t 0 - nth i b 0).
Proof using HF.
  intros Lt Lb HR Ea. assert (P := family_likelihood_pos F HF t row b Lt Lb HR). destruct (family_concave F HF t Lt) as [_ HP'].
  assert (E := ln_likelihood (f_params F) (f_cats F) (fun v i k => f_p F v t i k) row b HP' Lb HR). change (likelihood (fun v i k => f_p F v t i k) b row) with (likelihood_in F t row b) in E.
  destruct (legal_answer _ _ i a HR Ea) as [Ha Hi]. apply ln_le_inv; [exact P| |apply exp_pos]. rewrite ln_exp, E.
  assert (Z : forall j, (j < length row)%nat -> seen_log (fun v i k => f_p F v t i k) row b j <= 0).
  { intros j Hj. unfold seen_log. destruct (answer (nth j row None)) as [k|] eqn:Ek; [|lra]. destruct (legal_answer _ _ j k HR Ek) as [Hk _]. rewrite <- ln_1. apply ln_le; [now apply HP'|]. unfold F. cbn [opl_family f_p]. unfold opl_p. cbv zeta. pose proof (logistic_bounds (nth 0 t 0 + nth j (opl_b (opl_of items b)) 0)). destruct (k =? 1)%nat; lra. }
  assert (S : sumn (length row) (fun j => - seen_log (fun v i k => f_p F v t i k) row b j) >= - seen_log (fun v i k => f_p F v t i k) row b i).
  { apply Rle_ge. apply (sumn_term_le (length row) (fun j => - seen_log (fun v i k => f_p F v t i k) row b j) i); [|exact Hi]. intros j Hj. specialize (Z j Hj). lra. }
  rewrite (sumn_ext _ _ (fun j => -1 * seen_log (fun v i k => f_p F v t i k) row b j)) in S by (intros; ring). rewrite sumn_scal in S.
  apply Rle_trans with (seen_log (fun v i k => f_p F v t i k) row b i); [lra|]. unfold seen_log. rewrite Ea. unfold F. cbn [opl_family f_p]. unfold opl_p. cbv zeta. cbn [opl_of opl_b]. destruct (a =? 1)%nat; [apply ln_logistic_le|]. rewrite logistic_opp. pose proof (ln_logistic_le (- (nth 0 t 0 + nth i b 0))). lra.
Qed.
Lemma lik_one t row b : length t = 1%nat -> length b = items -> legal_row (f_cats F) row -> likelihood_in F t row b <= 1.
Proof using HF. intros Lt Lb HR. destruct (family_library F b HF Lb) as (Hm & EC & EL). apply (likelihood_le_1 (f_model F b) (f_p F b) t row Hm). now rewrite EC. Qed.
Let A1 := sumn Q (fun q => nth q weights 0 * exp (nth 0 (nth q points []) 0)).
Let A0 := sumn Q (fun q => nth q weights 0 * exp (- nth 0 (nth q points []) 0)).
Let AW := sumn Q (fun q => nth q weights 0).
Let top := Rmax 0 (Rmax (ln AW) (Rmax (ln A1) (ln A0))).
Lemma qpos : (0 < Q)%nat.
Proof using HP. clear - HP. unfold Q. destruct points; [congruence|cbn; lia]. Qed.
Lemma qleg q : (q < Q)%nat -> length (nth q points []) = 1%nat /\ 0 < nth q weights 0.
Proof using HF HL HT HW. intro Hq. exact (point_legal F points weights HL HT HW q Hq). Qed.
Lemma sums_pos : 0 < A1 /\ 0 < A0 /\ 0 < AW.
Proof using HF HP HL HT HW.
  repeat split; (apply RFacts.sumn_pos; [exact qpos|]); intros q Hq; destruct (qleg q Hq) as [_ Hw]; try exact Hw; apply Rmult_lt_0_compat; auto; apply exp_pos.
Qed.
Lemma ln_m_top r b : (r < N)%nat -> length b = items -> ln (m r b) <= top.
Proof using HF HD HP HL HT HW.
  intros Hr Lb. apply Rle_trans with (ln AW); [|unfold top; eapply Rle_trans; [|apply Rmax_r]; apply Rmax_l]. apply ln_le; [now apply mpos|]. unfold m, marginal_in, AW. apply sumn_le. intros q Hq. destruct (qleg q Hq) as [Lt Hw].
  rewrite <- (Rmult_1_r (nth q weights 0)) at 2. apply Rmult_le_compat_l; [lra|]. apply lik_one; auto. now apply rk.
Qed.
Lemma ln_m_answer r i a b : answers i a r -> length b = items -> ln (m r b) <= top + (if (a =? 1)%nat then nth i b 0 else - nth i b 0).
Proof using HF HD HP HL HT HW.
  intros [Hr Ea] Lb. destruct sums_pos as (P1 & P0 & _). set (z := if (a =? 1)%nat then nth i b 0 else - nth i b 0). set (A := if (a =? 1)%nat then A1 else A0). assert (PA : 0 < A) by (unfold A; destruct (a =? 1)%nat; assumption).
  assert (B : m r b <= A * exp z).
  { unfold m, marginal_in. replace (A * exp z) with (sumn Q (fun q => nth q weights 0 * exp ((if (a =? 1)%nat then nth 0 (nth q points []) 0 else - nth 0 (nth q points []) 0) + z))).
    - apply sumn_le. intros q Hq. destruct (qleg q Hq) as [Lt Hw]. apply Rmult_le_compat_l; [lra|]. eapply Rle_trans; [apply (lik_answer _ _ i a); auto; now apply rk|]. right. f_equal. unfold z. destruct (a =? 1)%nat; ring.
    - unfold A, A1, A0. destruct (a =? 1)%nat; rewrite Rmult_comm, <- sumn_scal; apply sumn_ext; intros; rewrite exp_plus; ring. }
  apply Rle_trans with (ln (A * exp z)); [apply ln_le; [now apply mpos|exact B]|]. rewrite ln_mult, ln_exp by (auto; apply exp_pos). apply Rplus_le_compat_r. unfold A, top.
  pose proof (Rmax_r 0 (Rmax (ln AW) (Rmax (ln A1) (ln A0)))). pose proof (Rmax_r (ln AW) (Rmax (ln A1) (ln A0))). pose proof (Rmax_l (ln A1) (ln A0)). pose proof (Rmax_r (ln A1) (ln A0)). destruct (a =? 1)%nat; lra.
Qed.
Lemma sum_bound r z b : (r < N)%nat -> length b = items -> ln (m r b) <= top + z -> sumn N (fun r => ln (m r b)) <= INR N * top + z.
Proof using HF HD HP HL HT HW.
  intros Hr Lb Hz. assert (T := sumn_term_le N (fun r => top - ln (m r b)) r). cbv beta in T. rewrite sumn_minus, sumn_const in T. assert (H : top - ln (m r b) <= INR N * top - sumn N (fun r => ln (m r b))).
  { apply T; [|exact Hr]. intros r' Hr'. pose proof (ln_m_top r' b Hr' Lb). lra. }
  lra.
Qed.
Lemma top_nonneg : 0 <= top.
Proof using Type. unfold top. apply Rmax_l. Qed.
Lemma all_bound b i : length b = items -> sumn N (fun r => ln (m r b)) <= INR N * top - (if bothb i then Rabs (nth i b 0) else 0).
Proof using HF HD HP HL HT HW.
  intro Lb. destruct (bothb i) eqn:EB.
  - apply bothb_iff in EB as [[r1 H1] [r0 H0]]. assert (B1 := ln_m_answer r1 i 1 b H1 Lb). assert (B0 := ln_m_answer r0 i 0 b H0 Lb). cbn [Nat.eqb] in B1, B0.
    pose proof (sum_bound r1 _ b (proj1 H1) Lb B1). pose proof (sum_bound r0 _ b (proj1 H0) Lb B0). unfold Rabs. destruct (Rcase_abs (nth i b 0)); lra.
  - rewrite Rminus_0_r, <- sumn_const. apply sumn_le. intros r Hr. now apply ln_m_top.
Qed.
Let P (b : list R) : R := sumn items (fun i => if bothb i then Rabs (nth i b 0) else 0).
Lemma same_marginal r b b' : (r < N)%nat -> (forall i a, answers i a r -> nth i b 0 = nth i b' 0) -> m r b = m r b'.
Proof using Type.
  clear.
  clear. intros Hr H. unfold m, marginal_in. apply sumn_ext. intros q _. f_equal. unfold likelihood_in, likelihood. f_equal. apply nth_error_ext. intro i. rewrite !nth_error_mapi. destruct (nth_error (nth r data []) i) as [c|] eqn:Ec; [|reflexivity]. cbn [option_map]. f_equal.
  destruct (answer c) as [k|] eqn:Ek; [|reflexivity]. unfold F. cbn [opl_family f_p]. unfold opl_p. cbn [opl_of opl_b]. rewrite (H i k); [reflexivity|]. split; [exact Hr|]. now rewrite (nth_error_nth _ _ None Ec).
Qed.
Lemma rasch_exists : (forall i a, (i < items)%nat -> (exists r, answers i a r) -> both_used i) -> exists b, length b = items /\ minimum items (marginal_loss F data points weights) b.
Proof using HF HD HP HL HT HW.
  intro HB. destruct (attained items (fun b => exp (sumn N (fun r => ln (m r b)))) (fun b => sumn N (fun r => ln (m r b))) P (/ INR items) (INR N * top)) as (b & Lb & Hb).
  - apply ucont_product; [intros; apply mucont|intros; now apply mpos].
  - unfold P. apply (ucont_sumn items items (fun i b => if bothb i then Rabs (nth i b 0) else 0)). intros i _. destruct (bothb i); [|apply ucont_const]. apply (ucont_comp items (fun b => nth i b 0) Rabs); [exact Rcontinuity_abs|apply ucont_nth].
  - intros b _. apply sumn_nonneg. intros i _. destruct (bothb i); [apply Rabs_pos|lra].
  - intros b M _ HM. unfold P. rewrite <- sumn_div. apply sumn_ext. intros i _. destruct (bothb i); [|unfold Rdiv; ring]. rewrite nth_scaled. unfold Rdiv. rewrite Rabs_mult, (Rabs_right (/ M)); [reflexivity|]. left. now apply Rinv_0_lt_compat.
  - intros b b' _ _ [H|H]; [left; now apply exp_increasing|right; now f_equal].
  - apply Rinv_0_lt_compat. now apply lt_0_INR.
  - intros b Lb. assert (0 < INR items) by (now apply lt_0_INR). apply (Rmult_le_reg_l (INR items)); [assumption|]. rewrite <- sumn_const, Rmult_minus_distr_l. replace (INR items * (/ INR items * P b)) with (P b) by (field; lra). unfold P. rewrite <- (sumn_const items (INR N * top)), <- sumn_minus. apply sumn_le. intros i _. now apply all_bound.
  - intros v b x Lv Lb Pv. f_equal. apply sumn_ext. intros r Hr. f_equal. apply same_marginal; [exact Hr|]. intros i a Ha. assert (Hi : (i < items)%nat).
    { destruct Ha as [_ Ea]. destruct (legal_answer _ _ i a (rk r Hr) Ea) as [_ Hi]. rewrite (proj1 (rk r Hr)) in Hi. unfold F in Hi. cbn [opl_family f_cats] in Hi. now rewrite repeat_length in Hi. }
    assert (EB : bothb i = true) by (apply bothb_iff, (HB i a Hi); now exists r). assert (Z : Rabs (nth i v 0) = 0).
    { apply Rle_antisym; [|apply Rabs_pos]. apply Rle_trans with (P v); [|right; exact Pv]. unfold P. assert (T := sumn_term_le items (fun i => if bothb i then Rabs (nth i v 0) else 0) i). cbv beta in T. rewrite EB in T. apply T; [|exact Hi]. intros j _. destruct (bothb j); [apply Rabs_pos|lra]. }
    rewrite line_nth by exact Hi. destruct (Req_dec (nth i v 0) 0) as [E0|E0]; [rewrite E0; ring|]. exfalso. now apply (Rabs_no_R0 _ E0).
  - exists b. split; [exact Lb|]. intros b' Lb'. unfold marginal_loss. apply Ropp_le_contravar. specialize (Hb b' Lb'). cbv beta in Hb. apply Rnot_lt_le. intro X. apply exp_increasing in X. unfold m in Hb. fold N in X. lra.
Qed.
End RASCH.
