(** The information of the library's parametric models. *)
From Verif Require Import Base BaseFacts RBase RFacts M_Logit S_Logit P_Logit P_Logit2 P_Logit3 P_Logit4 M_Lik P_Lik5 M_Est M_Stat S_Stat P_Spline4 M_Scale S_Scale P_Pop5 P_Pop6 M_Info S_Info P_Info1 P_Info2.
Import List.
Local Open Scope R_scope.

Lemma covariance_scaled K p s a u b : category_covariance K p (fun k => s k * a) (fun k => u k * b) = a * b * category_covariance K p s u.
Proof.
  assert (E : forall s a, category_mean K p (fun k => s k * a) = category_mean K p s * a).
  { intros. unfold category_mean. rewrite <- sumn_scal_r. apply sumn_ext. intros; ring. }
  unfold category_covariance. rewrite !E, <- sumn_scal. apply sumn_ext. intros. ring.
Qed.
Lemma covariance_ext K p p' s s' u u' : (forall k, (k < K)%nat -> p k = p' k) -> (forall k, (k < K)%nat -> s k = s' k) -> (forall k, (k < K)%nat -> u k = u' k) ->
  category_covariance K p s u = category_covariance K p' s' u'.
Proof.
  intros H1 H2 H3. assert (E : category_mean K p s = category_mean K p' s') by (apply sumn_ext; intros k Hk; now rewrite H1, H2).
  assert (E' : category_mean K p u = category_mean K p' u') by (apply sumn_ext; intros k Hk; now rewrite H1, H3).
  unfold category_covariance. rewrite E, E'. apply sumn_ext. intros k Hk. now rewrite H1, H2, H3.
Qed.
Lemma covariance_two p s u : sumn 2 p = 1 -> s O = 0 -> u O = 0 -> category_covariance 2 p s u = s 1%nat * u 1%nat * (p 1%nat * (1 - p 1%nat)).
Proof.
  cbn [sumn]. intros H Hs Hu. unfold category_covariance, category_mean. cbn [sumn]. rewrite Hs, Hu. replace (p O) with (1 - p 1%nat) by lra. ring.
Qed.
Lemma matrix_ext lv out r i I I' : item_matrix_is lv out r i I -> (forall d e, (d < lv)%nat -> (e < lv)%nat -> I d e = I' d e) -> item_matrix_is lv out r i I'.
Proof. intros (a & b & c & H1 & H2 & H3 & H4) H. exists a, b, c. split; [exact H1|]. split; [exact H2|]. split; [exact H3|]. intros. rewrite <- H by assumption. now apply H4. Qed.
Lemma test_ext lv out r I I' : test_matrix_is lv out r I -> (forall d e, (d < lv)%nat -> (e < lv)%nat -> I d e = I' d e) -> test_matrix_is lv out r I'.
Proof. intros (a & c & H1 & H2 & H4) H. exists a, c. split; [exact H1|]. split; [exact H2|]. intros. rewrite <- H by assumption. now apply H4. Qed.

(** ** Generalized partial credit *)
Definition gpc_z (m : poly) (t : list R) (i k : nat) : R := INR k * predictor (p_lv m) (slope (p_free m) (p_w m) i) t + intercept (p_cats m) (p_b m) i k.
Lemma gpc_reads m : poly_wf m -> reads (p_lv m) (length (p_cats m)) (p_max m) (gpc_probabilities m) (soft (p_cats m) (gpc_z m)).
Proof.
  intros Hwf thetas r t i k HF Ht Hi Hk. pose proof (nth_error_nth_lt (p_cats m) i O Hi) as EK.
  rewrite (gpc_probs_spec m thetas r t i _ k Hwf HF Ht EK Hk). reflexivity.
Qed.
Lemma cats_bounds (cats : list nat) i : Forall (fun K => (1 <= K)%nat) cats -> (i < length cats)%nat -> (1 <= nth i cats O <= list_max cats)%nat.
Proof. intros H Hi. pose proof (nth_error_nth_lt cats i O Hi) as E. now destruct (cats_pos_bound cats i _ H E). Qed.
Lemma gpc_affine m t i k d x : length t = p_lv m -> (d < p_lv m)%nat -> gpc_z m (upd d x t) i k = gpc_z m t i k + INR k * slope (p_free m) (p_w m) i d * (x - nth d t 0).
Proof. intros Lt Hd. unfold gpc_z. rewrite predictor_upd by auto. ring. Qed.

(** ** Nominal response *)
Definition nrm_z (m : nrm) (t : list R) (i k : nat) : R := predictor (nrm_lv m) (nrm_slope m i k) t + nrm_intercept m i k.
Lemma nrm_reads m : nrm_wf m -> reads (nrm_lv m) (length (nrm_cats m)) (nrm_max m) (nrm_probabilities m) (soft (nrm_cats m) (nrm_z m)).
Proof.
  intros Hwf thetas r t i k HF Ht Hi Hk. pose proof (nth_error_nth_lt (nrm_cats m) i O Hi) as EK.
  rewrite (nrm_probs_spec m Hwf thetas r t i _ k HF Ht EK Hk). reflexivity.
Qed.
Lemma nrm_affine m t i k d x : length t = nrm_lv m -> (d < nrm_lv m)%nat -> nrm_z m (upd d x t) i k = nrm_z m t i k + nrm_slope m i k d * (x - nth d t 0).
Proof. intros Lt Hd. unfold nrm_z. rewrite predictor_upd by auto. ring. Qed.

(** ** Two and one parameter logistic *)
Definition two_z (x : R) (k : nat) : R := if (k =? 0)%nat then 0 else x.
Definition tpl_x (m : tpl) (t : list R) (i : nat) : R := predictor (tpl_lv m) (slope (tpl_free m) (tpl_w m) i) t + nth i (tpl_b m) 0.
Lemma two_soft x k : (k < 2)%nat -> category_probability 2 (two_z x) k = if (k =? 1)%nat then logistic x else 1 - logistic x.
Proof. intro Hk. unfold two_z. rewrite <- category_probability_2 by exact Hk. apply cp_ext; [exact Hk|]. intros [|[|j]] Hj; try lia; reflexivity. Qed.
Lemma tpl_reads m : tpl_wf m -> reads (tpl_lv m) (length (repeat 2%nat (tpl_items m))) 2 (tpl_probabilities m) (soft (repeat 2%nat (tpl_items m)) (fun t i => two_z (tpl_x m t i))).
Proof.
  intros Hwf thetas r t i k HF Ht Hi Hk. rewrite repeat_length in Hi. rewrite (tpl_probs_spec m thetas r t i k Hwf HF Ht Hi Hk). unfold soft.
  rewrite (nth_error_nth _ i O (nth_error_repeat_lt 2%nat (tpl_items m) i Hi)). destruct (Nat.ltb_spec k 2); [|lia]. now rewrite two_soft by exact Hk.
Qed.
Lemma opl_reads m : length (opl_b m) = opl_items m ->
  reads 1 (length (repeat 2%nat (opl_items m))) 2 (fun thetas => opl_probabilities m (map (fun t => nth 0 t 0) thetas))
    (soft (repeat 2%nat (opl_items m)) (fun t i => two_z (nth 0 t 0 + nth i (opl_b m) 0))).
Proof.
  intros Hb thetas r t i k HF Ht Hi Hk. rewrite repeat_length in Hi.
  rewrite (opl_probs_spec m _ r (nth 0 t 0) i k Hb) by (auto; now rewrite nth_error_map, Ht). unfold soft.
  rewrite (nth_error_nth _ i O (nth_error_repeat_lt 2%nat (opl_items m) i Hi)). destruct (Nat.ltb_spec k 2); [|lia]. now rewrite two_soft by exact Hk.
Qed.
Lemma twos_bounds n i : (i < length (repeat 2%nat n))%nat -> (1 <= nth i (repeat 2%nat n) O <= 2)%nat.
Proof. rewrite repeat_length. intro Hi. rewrite (nth_error_nth _ i O (nth_error_repeat_lt 2%nat n i Hi)). lia. Qed.
Lemma two_affine x a h k : two_z (x + a * h) k = two_z x k + (if (k =? 0)%nat then 0 else a) * h.
Proof. unfold two_z. destruct (k =? 0)%nat; ring. Qed.
Lemma two_covariance n i x a b : (i < n)%nat ->
  category_covariance (nth i (repeat 2%nat n) O) (category_probability (nth i (repeat 2%nat n) O) (two_z x)) (fun k => if (k =? 0)%nat then 0 else a) (fun k => if (k =? 0)%nat then 0 else b)
  = a * b * (logistic x * (1 - logistic x)).
Proof.
  intro Hi. rewrite (nth_error_nth _ i O (nth_error_repeat_lt 2%nat n i Hi)). rewrite covariance_two; [|apply category_probability_sum; lia|reflexivity|reflexivity].
  rewrite two_soft by lia. reflexivity.
Qed.

(** ** Three parameter logistic *)
Definition thpl_x (m : thpl) (t : list R) (i : nat) : R := predictor (thpl_lv m) (slope (thpl_free m) (thpl_w m) i) t + nth i (thpl_b m) 0.
Definition thpl_P (m : thpl) (t : list R) (i : nat) : R := let c := logistic (nth i (thpl_g m) 0) in c + (1 - c) * logistic (thpl_x m t i).
Definition thpl_p (m : thpl) (t : list R) (i k : nat) : R := if (k =? 1)%nat then thpl_P m t i else 1 - thpl_P m t i.
Definition thpl_D (m : thpl) (t : list R) (i k d : nat) : R :=
  let c := logistic (nth i (thpl_g m) 0) in let l := logistic (thpl_x m t i) in
  (if (k =? 1)%nat then 1 else -1) * ((1 - c) * (slope (thpl_free m) (thpl_w m) i d * (l * (1 - l)))).
Lemma thpl_reads m : thpl_wf m -> reads (thpl_lv m) (thpl_items m) 2 (fun thetas => some3 (thpl_probabilities m thetas)) (thpl_p m).
Proof.
  intros Hwf thetas r t i k HF Ht Hi Hk. rewrite some3_at3, (thpl_probs_spec m thetas r t i k Hwf HF Ht Hi Hk). reflexivity.
Qed.
Lemma logistic_affine_derivative x a x0 : derivable_pt_lim (fun y => logistic (x + a * (y - x0))) x0 (a * (logistic x * (1 - logistic x))).
Proof.
  assert (A : derivable_pt_lim (fun y => x + a * (y - x0)) x0 a).
  { apply (derivable_ext (fun y => a * y + (x - a * x0))); [intro; ring|].
    pose proof (derivable_pt_lim_plus (fun y => a * y) (fun _ => x - a * x0) x0 _ _ (derivable_pt_lim_scal id a x0 1 (derivable_pt_lim_id x0)) (derivable_pt_lim_const (x - a * x0) x0)) as H.
    replace (a * 1 + 0) with a in H by ring. exact H. }
  pose proof (derivable_pt_lim_comp _ logistic _ _ _ A (logistic_derivative _)) as H. cbv beta in H.
  replace (x + a * (x0 - x0)) with x in H by ring. replace (a * (logistic x * (1 - logistic x))) with (logistic x * (1 - logistic x) * a) by ring. exact H.
Qed.
Lemma thpl_partials m t : thpl_wf m -> length t = thpl_lv m -> partials (thpl_lv m) (thpl_items m) 2 (thpl_p m) t (thpl_D m t).
Proof.
  intros Hwf Lt i k d Hi Hk Hd. set (a := slope (thpl_free m) (thpl_w m) i d). set (c := logistic (nth i (thpl_g m) 0)).
  assert (E : forall x, thpl_P m (upd d x t) i = c + (1 - c) * logistic (thpl_x m t i + a * (x - nth d t 0))).
  { intro x. unfold thpl_P, thpl_x. fold c. rewrite predictor_upd by auto. fold a. cbv zeta. do 2 f_equal. f_equal. ring. }
  assert (DP : derivable_pt_lim (fun x => thpl_P m (upd d x t) i) (nth d t 0) ((1 - c) * (a * (logistic (thpl_x m t i) * (1 - logistic (thpl_x m t i)))))).
  { apply (derivable_ext (fun x => (1 - c) * logistic (thpl_x m t i + a * (x - nth d t 0)) + c)); [intro; rewrite E; ring|].
    pose proof (derivable_pt_lim_plus _ (fun _ => c) _ _ _ (derivable_pt_lim_scal _ (1 - c) _ _ (logistic_affine_derivative (thpl_x m t i) a (nth d t 0))) (derivable_pt_lim_const c (nth d t 0))) as H.
    rewrite Rplus_0_r in H. exact H. }
  unfold thpl_p, thpl_D. fold a c. cbv zeta. destruct (k =? 1)%nat; [rewrite Rmult_1_l; exact DP|].
  pose proof (derivable_pt_lim_minus (fun _ => 1) _ _ _ _ (derivable_pt_lim_const 1 (nth d t 0)) DP) as H.
  replace (-1 * ((1 - c) * (a * (logistic (thpl_x m t i) * (1 - logistic (thpl_x m t i)))))) with (0 - (1 - c) * (a * (logistic (thpl_x m t i) * (1 - logistic (thpl_x m t i))))) by ring. exact H.
Qed.
Lemma thpl_between m t i : logistic (nth i (thpl_g m) 0) < thpl_P m t i < 1.
Proof. unfold thpl_P. pose proof (logistic_bounds (nth i (thpl_g m) 0)). pose proof (logistic_bounds (thpl_x m t i)). cbv zeta. split; nra. Qed.
Lemma thpl_supported m t : supported (thpl_lv m) (thpl_items m) 2 (thpl_p m) t (thpl_D m t).
Proof.
  intros i k Hi Hk. left. pose proof (thpl_between m t i). pose proof (logistic_bounds (nth i (thpl_g m) 0)). unfold thpl_p. destruct (k =? 1)%nat; lra.
Qed.
Lemma thpl_fisher m t i d e : let a := slope (thpl_free m) (thpl_w m) i in let c := logistic (nth i (thpl_g m) 0) in let P := thpl_P m t i in
  fisher 2 (thpl_p m t i) (thpl_D m t i) d e = a d * a e * ((1 - P) / P * ((P - c) / (1 - c)) ^ 2).
Proof.
  intros a c P. unfold fisher, thpl_p, thpl_D. cbn [sumn Nat.eqb]. fold a c P. pose proof (thpl_between m t i) as B. pose proof (logistic_bounds (nth i (thpl_g m) 0)) as C. fold c P in B, C.
  destruct (Req_EM_T (1 - P) 0); [lra|]. destruct (Req_EM_T P 0); [lra|]. set (l := logistic (thpl_x m t i)).
  assert (EP : P = c + (1 - c) * l) by reflexivity. pose proof (logistic_bounds (thpl_x m t i)) as L. fold l in L.
  replace ((P - c) / (1 - c)) with l by (rewrite EP; field; lra).
  replace (1 - P) with ((1 - c) * (1 - l)) in * by (rewrite EP; ring). replace (1 - l) with ((1 - P) / (1 - c)) by (rewrite EP; field; lra).
  rewrite EP. field. split; [nra|split; [|nra]]. rewrite EP in *. nra.
Qed.
