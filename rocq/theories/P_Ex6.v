(** Two two-parameter items and two respondents, one all right and one all wrong: no lowest marginal loss. *)
From Verif Require Import Base BaseFacts RBase RFacts M_Data M_Logit M_Lik M_Est M_Opt M_Jml P_Logit P_Logit2 P_Est2 P_Info2 P_Opt1 P_Opt2 P_Opt3 P_Scoreq P_Item1 P_Item2 P_Item3 P_Max1 P_Max3 P_Max4 P_Max5 P_Max6 P_Max7 P_Ex1 P_Ex2 P_Ex3 P_Ex4 S_Logit S_Lik S_Est S_Opt S_Max S_Item S_Ex.
Import List.
Local Open Scope R_scope.

Lemma gap (xs : list R) : Forall (fun x => x <> 0) xs -> exists d, 0 < d /\ forall q, (q < length xs)%nat -> d <= Rabs (nth q xs 0).
Proof.
  induction xs as [|x xs IH]; intro H; [exists 1; split; [lra|]; cbn; intros; lia|]. destruct (IH (Forall_inv_tail H)) as (d & Hd & H1). pose proof (Rabs_pos_lt x (Forall_inv H)) as Hx. exists (Rmin d (Rabs x)). split; [now apply Rmin_glb_lt|].
  intros [|q] Hq; cbn [nth]; [apply Rmin_r|]. eapply Rle_trans; [apply Rmin_l|]. apply H1. cbn [length] in Hq. lia.
Qed.
Lemma logistic_near e : 0 < e -> exists z, 0 <= z /\ - ln (logistic z) < e.
Proof.
  intro He. exists (Rmax 0 (- ln (e / 2))). split; [apply Rmax_l|]. set (z := Rmax _ _). assert (X : exp (- z) <= e / 2).
  { rewrite <- (exp_ln (e / 2)) by lra. assert (H : - z <= ln (e / 2)) by (unfold z; pose proof (Rmax_r 0 (- ln (e / 2))); lra). destruct H as [H|H]; [left; now apply exp_increasing|right; now rewrite H]. }
  pose proof (exp_pos (- z)) as P. unfold logistic. replace (1 / (1 + exp (- z))) with (/ (1 + exp (- z))) by (field; lra). rewrite ln_Rinv by lra. rewrite Ropp_involutive.
  assert (L : ln (1 + exp (- z)) <= exp (- z)); [|lra]. rewrite <- (ln_exp (exp (- z))) at 2. apply ln_le; [lra|]. left. apply exp_ineq1. lra.
Qed.

Section APART.
Variables (nanl : Z) (xs ws : list R).
Hypotheses (HX : xs <> []) (HL : length ws = length xs) (HW : Forall (fun w => 0 < w) ws) (HN : Forall (fun x => x <> 0) xs) (HB : weight_above xs ws = weight_below xs ws).
Let F := tpl_family nanl 1 [[true]; [true]].
Let pts := map (fun x => [x]) xs.
Let Q := length xs.
Let h := weight_above xs ws.
Let HF : parametric F.
Proof. apply par_tpl; [lia|cbn; lia|repeat constructor]. Qed.
Lemma ptq q : (q < Q)%nat -> nth q pts [] = [nth q xs 0].
Proof using Type. clear. intro Hq. unfold pts. rewrite (nth_indep _ [] [0]) by (now rewrite map_length). apply (map_nth (fun x => [x])). Qed.
Lemma wq q : (q < Q)%nat -> 0 < nth q ws 0.
Proof using HL HW. clear - HL HW. intro Hq. rewrite Forall_forall in HW. apply HW, nth_In. unfold Q in Hq. lia. Qed.
Lemma xq q : (q < Q)%nat -> nth q xs 0 <> 0.
Proof using HN. clear - HN. intro Hq. rewrite Forall_forall in HN. apply HN, nth_In. exact Hq. Qed.
Let l1 (v : list R) (x : R) : R := logistic (nth 0 v 0 * x + nth 2 v 0) * logistic (nth 1 v 0 * x + nth 3 v 0).
Let l0 (v : list R) (x : R) : R := (1 - logistic (nth 0 v 0 * x + nth 2 v 0)) * (1 - logistic (nth 1 v 0 * x + nth 3 v 0)).
Lemma rows v x : length v = 4%nat -> likelihood_in F [x] (nth 0 apart []) v = l1 v x /\ likelihood_in F [x] (nth 1 apart []) v = l0 v x.
Proof using Type.
  clear. destruct v as [|a [|c [|b [|d [|]]]]]; try discriminate. intros _. unfold likelihood_in, likelihood, apart, l1, l0. cbn [nth mapi mapi_from rprod]. unfold answer. change (1 =? -1)%Z with false. change (0 =? -1)%Z with false. cbv iota. change (Z.to_nat 1) with 1%nat. change (Z.to_nat 0) with 0%nat.
  unfold F. cbn [tpl_family f_p]. unfold tpl_p, predictor, slope, tpl_of. cbn. split; rewrite ?Rplus_0_l, ?Rmult_1_r; reflexivity.
Qed.
Let m1 v := sumn Q (fun q => nth q ws 0 * l1 v (nth q xs 0)).
Let m0 v := sumn Q (fun q => nth q ws 0 * l0 v (nth q xs 0)).
Lemma loss_apart v : length v = 4%nat -> marginal_loss F apart pts ws v = - (ln (m1 v) + ln (m0 v)).
Proof using Type.
  clear - xs. intro Lv. unfold marginal_loss. change (length apart) with 2%nat. cbn [sumn]. rewrite Rplus_0_l. f_equal. f_equal; f_equal; unfold marginal_in, m1, m0; (replace (length pts) with Q by (unfold pts; now rewrite map_length)); apply sumn_ext; intros q Hq; rewrite ptq by exact Hq; f_equal; now apply rows.
Qed.
Lemma lpos v x : 0 < l1 v x /\ 0 < l0 v x /\ l1 v x + l0 v x < 1.
Proof using Type.
  clear. unfold l1, l0. pose proof (logistic_bounds (nth 0 v 0 * x + nth 2 v 0)) as A. pose proof (logistic_bounds (nth 1 v 0 * x + nth 3 v 0)) as B. set (p := logistic (nth 0 v 0 * x + _)) in *. set (s := logistic (nth 1 v 0 * x + _)) in *.
  split; [apply Rmult_lt_0_compat; lra|]. split; [apply Rmult_lt_0_compat; lra|]. assert (0 < p * (1 - s)) by (apply Rmult_lt_0_compat; lra). assert (0 < s * (1 - p)) by (apply Rmult_lt_0_compat; lra). lra.
Qed.
Lemma q0 : (0 < Q)%nat.
Proof using HX. clear - HX. unfold Q. destruct xs; [congruence|cbn; lia]. Qed.
Lemma mpos2 v : 0 < m1 v /\ 0 < m0 v.
Proof using HX HL HW. split; (apply RFacts.sumn_pos; [exact q0|]); intros q Hq; apply Rmult_lt_0_compat; try (now apply wq); apply lpos. Qed.
Lemma total_weight : sumn Q (fun q => nth q ws 0) = 2 * h.
Proof using HN HB.
  clear HX HW HL. unfold h. transitivity (weight_above xs ws + weight_below xs ws); [|rewrite <- HB; ring]. unfold weight_above, weight_below. rewrite <- sumn_plus. apply sumn_ext. intros q Hq. pose proof (xq q Hq). destruct (Rlt_dec 0 (nth q xs 0)), (Rlt_dec (nth q xs 0) 0); lra.
Qed.
Lemma hpos : 0 < h.
Proof using HX HL HW HN HB. assert (X : 0 < sumn Q (fun q => nth q ws 0)) by (apply RFacts.sumn_pos; [exact q0|intros; now apply wq]). rewrite total_weight in X. lra. Qed.
Lemma below_h v : ln (m1 v) + ln (m0 v) < 2 * ln h.
Proof using HX HL HW HN HB.
  destruct (mpos2 v) as [P1 P0]. pose proof hpos as Hh. assert (S : m1 v + m0 v < 2 * h).
  { rewrite <- total_weight. unfold m1, m0. rewrite <- sumn_plus. apply sumn_lt.
    - intros q Hq. pose proof (wq q Hq). pose proof (lpos v (nth q xs 0)) as (_ & _ & L). rewrite <- Rmult_plus_distr_l. rewrite <- (Rmult_1_r (nth q ws 0)) at 2. apply Rmult_le_compat_l; lra.
    - exists 0%nat. split; [exact q0|]. pose proof (wq 0 q0). pose proof (lpos v (nth 0 xs 0)) as (_ & _ & L). rewrite <- Rmult_plus_distr_l. rewrite <- (Rmult_1_r (nth 0 ws 0)) at 2. apply Rmult_lt_compat_l; lra. }
  rewrite <- ln_mult by assumption. replace (2 * ln h) with (ln (h * h)) by (rewrite ln_mult by assumption; ring). apply ln_increasing; [now apply Rmult_lt_0_compat|]. assert (0 <= (m1 v - m0 v) * (m1 v - m0 v)) by (apply Rle_0_sqr). nra.
Qed.
Lemma near_h e : 0 < e -> exists v, length v = 4%nat /\ 2 * ln h - e < ln (m1 v) + ln (m0 v).
Proof using HX HL HW HN HB.
  intro He. destruct (logistic_near (e / 4) ltac:(lra)) as (z & Hz & Hl). destruct (gap xs HN) as (d & Hd & HD). set (t := z / d). assert (Ht : 0 <= t) by (apply Rmult_le_pos; [exact Hz|left; now apply Rinv_0_lt_compat]). assert (Et : t * d = z) by (unfold t; field; lra).
  exists [t; t; 0; 0]. split; [reflexivity|]. pose proof hpos as Hh. set (g := logistic z). pose proof (logistic_bounds z) as Hg. fold g in Hg.
  assert (UP : forall q, (q < Q)%nat -> (0 < nth q xs 0 -> g <= logistic (t * nth q xs 0 + 0)) /\ (nth q xs 0 < 0 -> g <= 1 - logistic (t * nth q xs 0 + 0))).
  { intros q Hq. specialize (HD q Hq). split; intro S; [rewrite Rabs_right in HD by lra|rewrite Rabs_left in HD by lra; rewrite logistic_opp].
    - apply logistic_le_iff. assert (t * d <= t * nth q xs 0) by (apply Rmult_le_compat_l; lra). lra.
    - apply logistic_le_iff. assert (t * d <= t * - nth q xs 0) by (apply Rmult_le_compat_l; lra). lra. }
  assert (G2 : forall y, g <= y -> g * g <= y * y) by (intros y Hy; apply Rmult_le_compat; lra).
  assert (B1 : h * (g * g) <= m1 [t; t; 0; 0]).
  { unfold h, weight_above, m1. rewrite Rmult_comm, <- sumn_scal. apply sumn_le. intros q Hq. pose proof (wq q Hq) as Hw. destruct (Rlt_dec 0 (nth q xs 0)) as [S|S].
    - rewrite Rmult_comm. apply Rmult_le_compat_l; [lra|]. unfold l1. cbn [nth]. apply G2, (UP q Hq), S.
    - rewrite Rmult_0_r. left. apply Rmult_lt_0_compat; [exact Hw|apply lpos]. }
  assert (B0 : h * (g * g) <= m0 [t; t; 0; 0]).
  { unfold h. rewrite HB. unfold weight_below, m0. rewrite Rmult_comm, <- sumn_scal. apply sumn_le. intros q Hq. pose proof (wq q Hq) as Hw. destruct (Rlt_dec (nth q xs 0) 0) as [S|S].
    - rewrite Rmult_comm. apply Rmult_le_compat_l; [lra|]. unfold l0. cbn [nth]. apply G2, (UP q Hq), S.
    - rewrite Rmult_0_r. left. apply Rmult_lt_0_compat; [exact Hw|apply lpos]. }
  assert (GG : 0 < g * g) by (apply Rmult_lt_0_compat; lra). assert (HG : 0 < h * (g * g)) by (now apply Rmult_lt_0_compat). apply ln_le in B1; [|exact HG]. apply ln_le in B0; [|exact HG]. rewrite !ln_mult in B1, B0 by (try assumption; lra). fold g in Hl. lra.
Qed.
Lemma apart_none v : length v = 4%nat -> exists v', length v' = 4%nat /\ marginal_loss F apart pts ws v' < marginal_loss F apart pts ws v.
Proof using HX HL HW HN HB.
  intro Lv. pose proof (below_h v) as H. destruct (near_h (2 * ln h - (ln (m1 v) + ln (m0 v))) ltac:(lra)) as (v' & Lv' & H'). exists v'. split; [exact Lv'|]. rewrite !loss_apart by assumption. lra.
Qed.
End APART.
