(** Models that contain one another. *)
From Verif Require Import Base BaseFacts RBase RFacts M_Logit S_Logit P_Logit P_Logit2 P_Logit3 P_Logit4 M_Lik S_Lik P_Lik1 P_Lik3 P_Lik5 M_Est M_Stat M_Scale S_Pop P_Pop6 M_Info S_Info P_Info1 P_Info2 P_Info3 P_Info4 P_Row S_Nest.
Import List.
Local Open Scope R_scope.

(** ** Tables determined by their entries *)
Lemma table_of_reads lv I M probs p thetas : Forall (fun t => length t = lv) thetas -> table_shape (length thetas) I M (probs thetas) -> reads lv I M probs p ->
  probs thetas = map (fun t => map (fun i => map (fun k => Some (p t i k)) (seq 0 M)) (seq 0 I)) thetas.
Proof.
  intros HF [[L1 L2] L3] HR. apply nth_error_ext. intro r. rewrite nth_error_map.
  destruct (nth_error (probs thetas) r) as [row|] eqn:Er.
  - assert (Hl : (r < length thetas)%nat) by (rewrite <- L1; apply nth_error_Some; congruence). pose proof (nth_error_nth_lt thetas r [] Hl) as Et. rewrite Et. cbn [option_map]. f_equal.
    assert (Lr : length row = I) by (rewrite Forall_forall in L2; apply L2; eapply nth_error_In; eauto).
    apply nth_error_ext. intro i. rewrite nth_error_map. destruct (nth_error row i) as [c|] eqn:Ec.
    + assert (Hi : (i < I)%nat) by (rewrite <- Lr; apply nth_error_Some; congruence). rewrite nth_error_seq by exact Hi. cbn [option_map Nat.add]. f_equal.
      assert (Lc : length c = M) by (apply (L3 r i); unfold at2; now rewrite Er).
      apply nth_error_ext. intro k. rewrite nth_error_map. destruct (Nat.lt_ge_cases k M) as [Hk|Hk].
      * pose proof (HR thetas r _ i k HF Et Hi Hk) as E. unfold at3, at2 in E. rewrite Er, Ec in E. rewrite E, nth_error_seq by exact Hk. reflexivity.
      * rewrite (proj2 (nth_error_None c k)) by lia. rewrite (proj2 (nth_error_None (seq 0 M) k)) by (rewrite seq_length; exact Hk). reflexivity.
    + apply nth_error_None in Ec. rewrite (proj2 (nth_error_None (seq 0 I) i)) by (rewrite seq_length; lia). reflexivity.
  - apply nth_error_None in Er. rewrite (proj2 (nth_error_None thetas r)) by lia. reflexivity.
Qed.
(** A table with the model's shape and entries. *)
Definition model_table (lv I M : nat) (probs : list (list R) -> list (list (list (option R)))) (p : list R -> nat -> nat -> R) : Prop :=
  forall thetas, Forall (fun t => length t = lv) thetas -> probs thetas = map (fun t => map (fun i => map (fun k => Some (p t i k)) (seq 0 M)) (seq 0 I)) thetas.
Lemma model_table_eq lv I M probs probs' p p' : model_table lv I M probs p -> model_table lv I M probs' p' ->
  (forall t i k, length t = lv -> (i < I)%nat -> (k < M)%nat -> p t i k = p' t i k) ->
  forall thetas, Forall (fun t => length t = lv) thetas -> probs thetas = probs' thetas.
Proof.
  intros H H' HE thetas HF. rewrite H, H' by exact HF. apply map_ext_in. intros t Ht. assert (Lt : length t = lv) by (rewrite Forall_forall in HF; now apply HF).
  apply map_ext_in. intros i Hi. apply in_seq in Hi. apply map_ext_in. intros k Hk. apply in_seq in Hk. rewrite HE by (lia || exact Lt). reflexivity.
Qed.
Lemma max_pos (cats : list nat) : Forall (fun K => (1 <= K)%nat) cats -> (0 < length cats)%nat -> (0 < list_max cats)%nat.
Proof. intros HC Hn. destruct (cats_bounds cats 0 HC Hn). lia. Qed.
Lemma gpc_table m : poly_wf m -> (0 < p_items m)%nat -> model_table (p_lv m) (p_items m) (p_max m) (gpc_probabilities m) (soft (p_cats m) (gpc_z m)).
Proof.
  intros Hwf Hn thetas HF. apply (table_of_reads (p_lv m)); [exact HF| |now apply gpc_reads].
  apply softmax_table_shape; [exact Hn|apply max_pos; [apply Hwf|exact Hn]|now apply gpc_rect].
Qed.
Lemma nrm_table m : nrm_wf m -> (0 < length (nrm_cats m))%nat -> model_table (nrm_lv m) (length (nrm_cats m)) (nrm_max m) (nrm_probabilities m) (soft (nrm_cats m) (nrm_z m)).
Proof.
  intros Hwf Hn thetas HF. apply (table_of_reads (nrm_lv m)); [exact HF| |now apply nrm_reads].
  apply softmax_table_shape; [exact Hn|apply max_pos; [apply Hwf|exact Hn]|now apply nrm_rect].
Qed.
Lemma grm_table m : poly_wf m -> (0 < p_items m)%nat -> model_table (p_lv m) (p_items m) (p_max m) (fun thetas => some3 (grm_probabilities m thetas)) (grm_p m).
Proof.
  intros Hwf Hn thetas HF. pose proof (max_pos (p_cats m) (proj1 (proj2 Hwf)) Hn) as HM.
  apply (table_of_reads (p_lv m) (p_items m) (p_max m) (fun thetas => some3 (grm_probabilities m thetas))); [exact HF| |now apply grm_reads].
  apply grm_table_shape; [exact Hn|exact HM|now apply grm_rect].
Qed.
Lemma tpl_table m : tpl_wf m -> (0 < tpl_items m)%nat -> model_table (tpl_lv m) (tpl_items m) 2 (tpl_probabilities m) (soft (repeat 2%nat (tpl_items m)) (fun t i => two_z (tpl_x m t i))).
Proof.
  intros Hwf Hn thetas HF. pose proof (tpl_reads m Hwf) as HR. rewrite repeat_length in HR. apply (table_of_reads (tpl_lv m)); [exact HF| |exact HR].
  apply softmax_table_shape; [exact Hn|lia|now apply tpl_rect].
Qed.
Lemma opl_table m : length (opl_b m) = opl_items m -> (0 < opl_items m)%nat ->
  model_table 1 (opl_items m) 2 (fun thetas => opl_probabilities m (map (fun t => nth 0 t 0) thetas)) (soft (repeat 2%nat (opl_items m)) (fun t i => two_z (nth 0 t 0 + nth i (opl_b m) 0))).
Proof.
  intros Hb Hn thetas HF. pose proof (opl_reads m Hb) as HR. rewrite repeat_length in HR.
  apply (table_of_reads 1 (opl_items m) 2 (fun thetas => opl_probabilities m (map (fun t => nth 0 t 0) thetas))); [exact HF| |exact HR].
  apply softmax_table_shape; [exact Hn|lia|]. rewrite <- (map_length (fun t => nth 0 t 0) thetas). now apply opl_rect.
Qed.
Lemma thpl_table m : thpl_wf m -> model_table (thpl_lv m) (thpl_items m) 2 (fun thetas => some3 (thpl_probabilities m thetas)) (thpl_p m).
Proof.
  intros Hwf thetas HF. apply (table_of_reads (thpl_lv m) (thpl_items m) 2 (fun thetas => some3 (thpl_probabilities m thetas))); [exact HF| |now apply thpl_reads].
  apply thpl_table_shape. now apply thpl_rect.
Qed.

(** ** Shapes of the nested models *)
Lemma twos_max n : (0 < n)%nat -> list_max (repeat 2%nat n) = 2%nat.
Proof. induction n as [|[|n] IH]; intro H; [lia|reflexivity|]. cbn [repeat list_max fold_right] in *. rewrite IH by lia. reflexivity. Qed.
Lemma twos_nth n i : (i < n)%nat -> nth i (repeat 2%nat n) O = 2%nat.
Proof. intro Hi. apply nth_error_nth. now apply nth_error_repeat_lt. Qed.
Lemma twos_pos n : Forall (fun K => (1 <= K)%nat) (repeat 2%nat n).
Proof. apply Forall_forall. intros K HK. apply repeat_spec in HK. lia. Qed.
Lemma twos_free n : list_sum (map pred (repeat 2%nat n)) = n.
Proof. induction n as [|n IH]; [reflexivity|]. cbn [repeat map]. change (list_sum (pred 2 :: map pred (repeat 2%nat n))) with (pred 2 + list_sum (map pred (repeat 2%nat n)))%nat. rewrite IH. reflexivity. Qed.
Lemma twos_intercept n b i k : (i < n)%nat -> (k < 2)%nat -> intercept (repeat 2%nat n) b i k = if (k =? 0)%nat then 0 else nth i b 0.
Proof.
  intros Hi Hk. unfold intercept. rewrite twos_nth by exact Hi. destruct k as [|[|k]]; [reflexivity| |lia]. cbn [Nat.leb Nat.ltb andb Nat.eqb Nat.sub].
  f_equal. replace (map pred (repeat 2%nat n)) with (repeat 1%nat n) by (now rewrite map_repeat).
  assert (E : forall n i, (i <= n)%nat -> list_sum (firstn i (repeat 1%nat n)) = i). { clear. induction n as [|n IH]; intros [|i] H; cbn; try lia. f_equal. apply IH. lia. }
  rewrite E by lia. lia.
Qed.
Lemma tpl_as_poly_wf m : tpl_wf m -> poly_wf (tpl_as_poly m).
Proof.
  intros (Hlv & Hf & Hw & Hb). unfold poly_wf, tpl_as_poly, p_items; cbn [p_lv p_cats p_free p_w p_b]. rewrite repeat_length, twos_free.
  split; [exact Hlv|]. split; [apply twos_pos|]. split; [reflexivity|]. split; [exact Hf|]. split; [exact Hw|exact Hb].
Qed.
Lemma ctrue_nrm_free m : (0 < nrm_lv m)%nat -> Forall (fun K => (1 <= K)%nat) (nrm_cats m) -> length (nrm_rel m) = length (nrm_cats m) -> Forall (fun r => length r = nrm_lv m) (nrm_rel m) ->
  ctrue (concat (nrm_free m)) = list_sum (map (fun Kr => pred (fst Kr) * ctrue (snd Kr))%nat (combine (nrm_cats m) (nrm_rel m))).
Proof.
  intros Hlv HC HL HF.
  set (m' := {| nrm_cats := nrm_cats m; nrm_lv := nrm_lv m; nrm_rel := nrm_rel m; nrm_w := repeat 0 (ctrue (concat (nrm_free m))); nrm_b := repeat 0 (list_sum (map pred (nrm_cats m))) |}).
  assert (Hwf : nrm_wf m'). { unfold nrm_wf, m'; cbn [nrm_cats nrm_lv nrm_rel nrm_w nrm_b]. rewrite !repeat_length. split; [exact Hlv|]. split; [exact HC|]. split; [exact HL|]. split; [exact HF|]. split; reflexivity. }
  destruct (Nat.eq_dec (length (nrm_cats m)) 0) as [H0|H0].
  { unfold nrm_free, nrm_free_weights. apply length_zero_iff_nil in H0. rewrite H0. reflexivity. }
  set (i := pred (length (nrm_cats m))). assert (Hi : (i < length (nrm_cats m))%nat) by (unfold i; lia).
  pose proof (nth_error_nth_lt (nrm_cats m) i O Hi) as EK. pose proof (nth_error_nth_lt (nrm_rel m) i [] ltac:(lia)) as Er.
  pose proof (nrm_count m' Hwf i _ _ (nrm_max m) EK Er (le_n _)) as E. pose proof (nrm_free_length m' Hwf) as Lf.
  change (nrm_free m') with (nrm_free m) in *. change (nrm_max m') with (nrm_max m) in *. change (nrm_cats m') with (nrm_cats m) in *. change (nrm_rel m') with (nrm_rel m) in *.
  rewrite firstn_all2 in E by (unfold i; rewrite Lf; nia). rewrite E.
  destruct (cats_bounds (nrm_cats m) i HC Hi) as [H1 H2]. fold (nrm_max m) in H2. rewrite Nat.min_r by exact H2.
  assert (Ec : nth_error (combine (nrm_cats m) (nrm_rel m)) i = Some (nth i (nrm_cats m) O, nth i (nrm_rel m) [])) by (now apply nth_error_combine_some).
  assert (Ef : combine (nrm_cats m) (nrm_rel m) = firstn (S i) (combine (nrm_cats m) (nrm_rel m))) by (symmetry; apply firstn_all2; rewrite combine_length; unfold i; lia).
  rewrite Ef at 2. rewrite (firstn_S_nth _ i _ Ec), map_app, list_sum_app. cbn [map fst snd list_sum fold_right]. lia.
Qed.
Lemma tpl_as_nrm_free_count (m : tpl) : list_sum (map (fun Kr => pred (fst Kr) * ctrue (snd Kr))%nat (combine (repeat 2%nat (tpl_items m)) (tpl_free m))) = ctrue (concat (tpl_free m)).
Proof.
  unfold tpl_items. generalize (tpl_free m) as free. induction free as [|row free IH]; [reflexivity|]. cbn [length repeat combine map list_sum fold_right fst snd pred concat]. fold (list_sum (map (fun Kr => pred (fst Kr) * ctrue (snd Kr))%nat (combine (repeat 2%nat (length free)) free))).
  rewrite IH, ctrue_app. lia.
Qed.
Lemma tpl_as_nrm_wf m : tpl_wf m -> nrm_wf (tpl_as_nrm m).
Proof.
  intros (Hlv & Hf & Hw & Hb). split; [exact Hlv|]. split; [apply twos_pos|]. split; [cbn; now rewrite repeat_length|]. split; [exact Hf|]. split.
  - rewrite ctrue_nrm_free; [|exact Hlv|apply twos_pos|cbn; now rewrite repeat_length|exact Hf]. cbn [nrm_w nrm_cats nrm_rel tpl_as_nrm]. rewrite map_length, tpl_as_nrm_free_count. exact Hw.
  - cbn [nrm_b nrm_cats tpl_as_nrm]. rewrite map_length, twos_free. exact Hb.
Qed.
Lemma opl_as_tpl_wf m : length (opl_b m) = opl_items m -> tpl_wf (opl_as_tpl m).
Proof.
  intro Hb. unfold tpl_wf, opl_as_tpl, tpl_items; cbn [tpl_lv tpl_free tpl_w tpl_b]. rewrite !repeat_length. split; [lia|]. split; [|split; [|exact Hb]].
  - apply Forall_forall. intros r Hr. apply repeat_spec in Hr. now subst.
  - generalize (opl_items m) as n. induction n as [|n IH]; [reflexivity|]. cbn [repeat concat app]. rewrite ctrue_cons, <- IH. lia.
Qed.

(** ** Equal tables *)
Lemma predictor_scaled lv a c t : predictor lv (fun d => c * a d) t = c * predictor lv a t.
Proof. unfold predictor. rewrite <- sumn_scal. apply sumn_ext. intros. ring. Qed.
Lemma trues_count n i : (i <= n)%nat -> ctrue (concat (firstn i (repeat [true] n))) = i.
Proof. revert i; induction n as [|n IH]; intros [|i] H; try reflexivity; [lia|]. cbn [repeat firstn concat app]. rewrite ctrue_cons, IH; lia. Qed.
Lemma opl_in_tpl m : length (opl_b m) = opl_items m -> (0 < opl_items m)%nat -> forall thetas, Forall (fun t => length t = 1%nat) thetas ->
  opl_probabilities m (map (fun t => nth 0 t 0) thetas) = tpl_probabilities (opl_as_tpl m) thetas.
Proof.
  intros Hb Hn. pose proof (tpl_table (opl_as_tpl m) (opl_as_tpl_wf m Hb)) as HT. unfold tpl_items in HT. cbn [opl_as_tpl tpl_free tpl_lv] in HT. rewrite repeat_length in HT.
  apply (model_table_eq 1 (opl_items m) 2 (fun thetas => opl_probabilities m (map (fun t => nth 0 t 0) thetas)) _ _ _ (opl_table m Hb Hn) (HT Hn)).
  intros t i k Lt Hi Hk. unfold soft. rewrite twos_nth by exact Hi. destruct (Nat.ltb_spec k 2); [|lia]. apply cp_ext; [exact Hk|]. intros j Hj. f_equal. unfold tpl_x. cbn [tpl_lv tpl_free tpl_w tpl_b opl_as_tpl]. f_equal.
  unfold predictor. cbn [sumn]. unfold slope. rewrite (nth_error_nth _ i [] (nth_error_repeat_lt [true] (opl_items m) i Hi)). cbn [nth firstn]. rewrite trues_count by lia.
  change (ctrue []) with O. rewrite Nat.add_0_r, (nth_error_nth (repeat 1 (opl_items m)) i 0 (nth_error_repeat_lt 1 (opl_items m) i Hi)). ring.
Qed.
Lemma tpl_in_gpc m : tpl_wf m -> (0 < tpl_items m)%nat -> forall thetas, Forall (fun t => length t = tpl_lv m) thetas ->
  gpc_probabilities (tpl_as_poly m) thetas = tpl_probabilities m thetas.
Proof.
  intros Hwf Hn. pose proof (gpc_table (tpl_as_poly m) (tpl_as_poly_wf m Hwf)) as HT. unfold p_items, p_max in HT. cbn [tpl_as_poly p_cats p_lv] in HT. rewrite repeat_length, twos_max in HT by exact Hn.
  apply (model_table_eq (tpl_lv m) (tpl_items m) 2 _ _ _ _ (HT Hn) (tpl_table m Hwf Hn)).
  intros t i k Lt Hi Hk. unfold soft. rewrite twos_nth by exact Hi. destruct (Nat.ltb_spec k 2); [|lia]. apply cp_ext; [exact Hk|]. intros j Hj.
  unfold gpc_z, two_z, tpl_x. cbn [tpl_as_poly p_cats p_lv p_free p_w p_b]. rewrite twos_intercept by assumption. destruct j as [|[|j]]; [|cbn [Nat.eqb INR]; ring|lia]. cbn [Nat.eqb INR]. ring.
Qed.
Lemma tpl_in_grm m : tpl_wf m -> (0 < tpl_items m)%nat -> forall thetas, Forall (fun t => length t = tpl_lv m) thetas ->
  some3 (grm_probabilities (tpl_as_poly m) thetas) = tpl_probabilities m thetas.
Proof.
  intros Hwf Hn. pose proof (grm_table (tpl_as_poly m) (tpl_as_poly_wf m Hwf)) as HT. unfold p_items, p_max in HT. cbn [tpl_as_poly p_cats p_lv] in HT. rewrite repeat_length, twos_max in HT by exact Hn.
  apply (model_table_eq (tpl_lv m) (tpl_items m) 2 (fun thetas => some3 (grm_probabilities (tpl_as_poly m) thetas)) _ _ _ (HT Hn) (tpl_table m Hwf Hn)).
  intros t i k Lt Hi Hk. unfold soft. rewrite twos_nth by exact Hi. destruct (Nat.ltb_spec k 2); [|lia]. rewrite two_soft by exact Hk.
  unfold grm_p, grm_g, geq_probability. cbn [tpl_as_poly p_cats]. rewrite twos_nth by exact Hi. unfold grm_z, tpl_x. cbn [tpl_as_poly p_cats p_lv p_free p_w p_b].
  destruct k as [|[|k]]; [| |lia]; cbn [Nat.eqb]; change (1 <? 2)%nat with true; change (2 <? 2)%nat with false; cbv iota; rewrite twos_intercept by (exact Hi || lia); cbn [Nat.eqb]; ring.
Qed.
Lemma cp_shift K z z' c k : (forall j, (j < K)%nat -> z' j = z j - c) -> (k < K)%nat -> category_probability K z' k = category_probability K z k.
Proof.
  intros H Hk. unfold category_probability. rewrite (sumn_ext K (fun j => exp (z' j)) (fun j => exp (- c) * exp (z j))); [|intros j Hj; rewrite H by exact Hj; rewrite <- exp_plus; f_equal; ring].
  rewrite sumn_scal, H by exact Hk. replace (z k - c) with (- c + z k) by ring. rewrite exp_plus. assert (0 < sumn K (fun j => exp (z j))) by (apply sum_exp_pos; lia). pose proof (exp_pos (- c)). field. lra.
Qed.
Lemma half_nth l i : nth i (map (fun a => a / 2) l) 0 = nth i l 0 / 2.
Proof. revert i; induction l as [|x l IH]; intros [|i]; cbn; auto; lra. Qed.
Lemma twos_slope_count (free : list (list bool)) i : (i <= length free)%nat ->
  list_sum (map (fun Kr => pred (fst Kr) * ctrue (snd Kr))%nat (firstn i (combine (repeat 2%nat (length free)) free))) = ctrue (concat (firstn i free)).
Proof.
  revert i; induction free as [|row free IH]; intros [|i] H; try reflexivity. cbn [length repeat combine firstn map concat fst snd pred].
  match goal with |- list_sum (?a :: ?l) = _ => change (list_sum (a :: l)) with (a + list_sum l)%nat end. cbn [length] in H. rewrite IH by lia. rewrite ctrue_app. lia.
Qed.
Lemma tpl_in_nrm m : tpl_wf m -> (0 < tpl_items m)%nat -> forall thetas, Forall (fun t => length t = tpl_lv m) thetas ->
  nrm_probabilities (tpl_as_nrm m) thetas = tpl_probabilities m thetas.
Proof.
  intros Hwf Hn. pose proof (nrm_table (tpl_as_nrm m) (tpl_as_nrm_wf m Hwf)) as HT. unfold nrm_max in HT. cbn [tpl_as_nrm nrm_cats nrm_lv] in HT. rewrite repeat_length, twos_max in HT by exact Hn.
  apply (model_table_eq (tpl_lv m) (tpl_items m) 2 _ _ _ _ (HT Hn) (tpl_table m Hwf Hn)).
  intros t i k Lt Hi Hk. unfold soft. rewrite twos_nth by exact Hi. destruct (Nat.ltb_spec k 2); [|lia]. apply (cp_shift 2 _ _ (tpl_x m t i / 2)); [|exact Hk]. clear k Hk H.
  assert (S1 : forall d, nrm_free_slope (tpl_as_nrm m) i 1 d = slope (tpl_free m) (tpl_w m) i d / 2).
  { intro d. unfold nrm_free_slope, slope. cbn [tpl_as_nrm nrm_cats nrm_rel nrm_w pred Nat.mul]. destruct (nth d (nth i (tpl_free m) []) false); [|lra].
    unfold tpl_items in *. rewrite twos_slope_count by lia. rewrite Nat.add_0_r, half_nth. reflexivity. }
  assert (P1 : predictor (tpl_lv m) (nrm_slope (tpl_as_nrm m) i 1) t = predictor (tpl_lv m) (slope (tpl_free m) (tpl_w m) i) t / 2).
  { transitivity (/ 2 * predictor (tpl_lv m) (slope (tpl_free m) (tpl_w m) i) t); [|lra]. rewrite <- predictor_scaled. apply predictor_ext. intros d _. unfold nrm_slope. cbn [Nat.eqb]. rewrite S1. lra. }
  assert (P0 : predictor (tpl_lv m) (nrm_slope (tpl_as_nrm m) i 0) t = - (predictor (tpl_lv m) (slope (tpl_free m) (tpl_w m) i) t / 2)).
  { transitivity (- / 2 * predictor (tpl_lv m) (slope (tpl_free m) (tpl_w m) i) t); [|lra]. rewrite <- predictor_scaled. apply predictor_ext. intros d _. unfold nrm_slope. cbn [Nat.eqb tpl_as_nrm nrm_cats]. rewrite twos_nth by exact Hi. cbn [Nat.sub sumn]. rewrite S1. lra. }
  assert (B1 : intercept (repeat 2%nat (tpl_items m)) (map (fun b => b / 2) (tpl_b m)) i 1 = nth i (tpl_b m) 0 / 2) by (rewrite twos_intercept by (exact Hi || lia); cbn [Nat.eqb]; apply half_nth).
  intros [|[|j]] Hj; [| |lia]; unfold nrm_z, two_z, tpl_x; cbn [tpl_as_nrm nrm_lv Nat.eqb]; fold (tpl_as_nrm m); rewrite ?P0, ?P1; unfold nrm_intercept; cbn [tpl_as_nrm nrm_cats nrm_b Nat.eqb]; rewrite ?twos_nth by exact Hi; cbn [Nat.sub sumn]; rewrite B1; lra.
Qed.
Lemma thpl_over_tpl m thetas r t i : thpl_wf m -> (0 < thpl_items m)%nat -> Forall (fun t => length t = thpl_lv m) thetas -> nth_error thetas r = Some t -> (i < thpl_items m)%nat ->
  exists p2 p3 c, at3 (tpl_probabilities (thpl_core m) thetas) r i 1 = Some (Some p2) /\ at3 (thpl_probabilities m thetas) r i 1 = Some p3 /\
    nth_error (map logistic (thpl_g m)) i = Some c /\ p3 = c + (1 - c) * p2 /\ 0 < p3 - p2 < c.
Proof.
  intros Hwf Hn HF Ht Hi. assert (Hwf2 : tpl_wf (thpl_core m)) by (destruct Hwf as (A & B & C & D & E); repeat split; assumption).
  set (l := logistic (thpl_x m t i)). exists l, (thpl_P m t i), (logistic (nth i (thpl_g m) 0)).
  split; [rewrite (tpl_probs_spec (thpl_core m) thetas r t i 1 Hwf2 HF Ht Hi) by lia; reflexivity|].
  split; [rewrite (thpl_probs_spec m thetas r t i 1 Hwf HF Ht Hi) by lia; reflexivity|].
  split; [rewrite nth_error_map, (nth_error_nth_lt (thpl_g m) i 0) by (destruct Hwf as (_ & _ & _ & _ & ->); exact Hi); reflexivity|].
  split; [reflexivity|]. unfold thpl_P. fold l. pose proof (logistic_bounds (thpl_x m t i)) as B. fold l in B. pose proof (logistic_bounds (nth i (thpl_g m) 0)) as C. cbv zeta. set (c := logistic (nth i (thpl_g m) 0)) in *. split; nra.
Qed.
