(** Lemmas: Fisher information; p-values. *)
From Verif Require Import Base BaseFacts RBase RFacts M_Logit M_Mono M_Lik M_Est M_Stat S_Stat P_Stat1 P_Stat3 P_Stat5 P_Stat6.
Local Open Scope R_scope.

Lemma fsum_fin l : fsum (map (fun x => Some (Fin x)) l) = Some (Fin (rsum l)).
Proof. induction l as [|x l IH]; [reflexivity|]. unfold fsum in *. cbn [map fold_right]. rewrite IH. reflexivity. Qed.
Lemma info_terms p g i j : regular p g ->
  map nan_to_zero (zip_with (fun q d => fdiv (Some (Fin (nth i d 0 * nth j d 0))) (Some (Fin q))) p g)
  = map (fun x => Some (Fin x)) (zip_with (fun q d => if Req_EM_T q 0 then 0 else nth i d 0 * nth j d 0 / q) p g).
Proof.
  induction 1 as [|q d p g H _ IH]; [reflexivity|]. cbn [zip_with map]. rewrite IH. f_equal. unfold fdiv. destruct (Req_EM_T q 0) as [Z|Z]; [|reflexivity].
  destruct H as [H|[_ H]]; [lra|]. rewrite !H. rewrite Rmult_0_l. destruct (Req_EM_T 0 0); [reflexivity|lra].
Qed.
Lemma item_information_value lv p g : regular p g -> item_information lv p g = square lv (item_info p g).
Proof.
  intros H. unfold item_information, square. apply map_ext. intros i. apply map_ext. intros j. unfold fnansum. rewrite info_terms by exact H. rewrite fsum_fin. reflexivity.
Qed.
Lemma item_info_sym p g i j : item_info p g i j = item_info p g j i.
Proof. unfold item_info. apply rsum_zip_ext. intros q d. destruct (Req_EM_T q 0); [reflexivity|]. unfold Rdiv. ring. Qed.
(** Quadratic forms are sums of squares. *)
Lemma item_info_form lv p g v :
  quadratic_form lv (item_info p g) v = rsum (zip_with (fun q d => if Req_EM_T q 0 then 0 else sumn lv (fun i => v i * nth i d 0) ^ 2 / q) p g).
Proof.
  unfold quadratic_form, item_info. revert g; induction p as [|q p IH]; intros [|d g].
  - cbn [zip_with]. unfold rsum. cbn [fold_right]. apply sumn_zero. intros i _. apply sumn_zero. intros; ring.
  - cbn [zip_with]. unfold rsum. cbn [fold_right]. apply sumn_zero. intros i _. apply sumn_zero. intros; ring.
  - cbn [zip_with]. unfold rsum. cbn [fold_right]. apply sumn_zero. intros i _. apply sumn_zero. intros; ring.
  - cbn [zip_with]. match goal with |- _ = rsum (?a :: ?b) => change (rsum (a :: b)) with (a + rsum b) end. rewrite <- IH.
    rewrite (sumn_ext _ _ (fun i => sumn lv (fun j => v i * (if Req_EM_T q 0 then 0 else nth i d 0 * nth j d 0 / q) * v j) +
        sumn lv (fun j => v i * rsum (zip_with (fun q d => if Req_EM_T q 0 then 0 else nth i d 0 * nth j d 0 / q) p g) * v j))).
    2:{ intros i _. rewrite <- sumn_plus. apply sumn_ext. intros j _. match goal with |- context [rsum (?a :: ?b)] => change (rsum (a :: b)) with (a + rsum b) end. ring. }
    rewrite sumn_plus. f_equal. destruct (Req_EM_T q 0) as [Z|Z].
    + apply sumn_zero. intros i _. apply sumn_zero. intros; ring.
    + cbn [pow]. rewrite Rmult_1_r.
      rewrite (sumn_ext _ _ (fun i => (v i * nth i d 0) * (sumn lv (fun j => v j * nth j d 0) * / q))).
      * rewrite sumn_scal_r. unfold Rdiv. ring.
      * intros i _. rewrite (sumn_ext _ _ (fun j => (v i * nth i d 0 * / q) * (v j * nth j d 0))) by (intros; unfold Rdiv; ring). rewrite sumn_scal. ring.
Qed.
Lemma regular_nonneg p g : regular p g -> Forall2 (fun q _ => 0 <= q) p g.
Proof. induction 1 as [|q d p g H _ IH]; constructor; [lra|assumption]. Qed.
Lemma item_info_psd lv p g v : regular p g -> 0 <= quadratic_form lv (item_info p g) v.
Proof.
  intros H. rewrite item_info_form. induction H as [|q d p g H _ IH]; [unfold rsum; cbn; lra|]. cbn [zip_with].
  match goal with |- 0 <= rsum (?a :: ?b) => change (0 <= a + rsum b) end. apply Rplus_le_le_0_compat; [|exact IH].
  destruct (Req_EM_T q 0); [lra|]. apply Rmult_le_pos; [apply pow2_ge_0|]. left. apply Rinv_0_lt_compat. destruct H as [|[]]; [assumption|contradiction].
Qed.
Lemma item_matrices lv probs grads : all_regular probs grads -> zip_with (item_information lv) probs grads = zip_with (fun p g => square lv (item_info p g)) probs grads.
Proof. induction 1 as [|p g ps gs H _ IH]; [reflexivity|]. cbn [zip_with]. rewrite IH, item_information_value by exact H. reflexivity. Qed.
Lemma add_squares lv fs : add_matrices lv (map (square lv) fs) = square lv (fun i j => rsum (map (fun f => f i j) fs)).
Proof.
  unfold add_matrices, square at 2. apply map_ext_in. intros i Hi. apply map_ext_in. intros j Hj. apply in_seq in Hi. apply in_seq in Hj.
  rewrite map_map. unfold fnansum. rewrite map_map. rewrite <- fsum_fin, map_map. f_equal. apply map_ext. intros f.
  pose proof (square_entry lv f i j ltac:(lia) ltac:(lia)) as E. unfold entry in E. rewrite (nth_error_nth _ _ None E). reflexivity.
Qed.
Lemma zip_with_map_out {A B C D} (h : C -> D) (f : A -> B -> C) a b : zip_with (fun x y => h (f x y)) a b = map h (zip_with f a b).
Proof. revert b; induction a as [|x a IH]; intros [|y b]; [reflexivity..|]. cbn [zip_with map]. rewrite IH. reflexivity. Qed.
Lemma test_matrix lv probs grads : all_regular probs grads -> add_matrices lv (zip_with (item_information lv) probs grads) = square lv (test_info probs grads).
Proof.
  intros H. rewrite item_matrices by exact H. rewrite (zip_with_map_out (square lv) item_info), add_squares. unfold square. apply map_ext. intros i. apply map_ext. intros j.
  do 2 f_equal. unfold test_info. rewrite <- (zip_with_map_out (fun f => f i j) item_info). reflexivity.
Qed.
Lemma test_info_sym probs grads i j : test_info probs grads i j = test_info probs grads j i.
Proof. unfold test_info. apply rsum_zip_ext. intros. apply item_info_sym. Qed.
Lemma test_info_form lv probs grads v : quadratic_form lv (test_info probs grads) v = rsum (zip_with (fun p g => quadratic_form lv (item_info p g) v) probs grads).
Proof.
  unfold quadratic_form, test_info. revert grads; induction probs as [|p ps IH]; intros [|g gs];
    try (cbn [zip_with]; unfold rsum; cbn [fold_right]; apply sumn_zero; intros i _; apply sumn_zero; intros; ring).
  cbn [zip_with]. match goal with |- _ = rsum (?a :: ?b) => change (rsum (a :: b)) with (a + rsum b) end. rewrite <- IH. rewrite <- sumn_plus. apply sumn_ext. intros i _.
  rewrite <- sumn_plus. apply sumn_ext. intros j _. match goal with |- context [rsum (?a :: ?b)] => change (rsum (a :: b)) with (a + rsum b) end. ring.
Qed.
Lemma test_info_psd lv probs grads v : all_regular probs grads -> 0 <= quadratic_form lv (test_info probs grads) v.
Proof.
  intros H. rewrite test_info_form. induction H as [|p g ps gs H _ IH]; [unfold rsum; cbn; lra|]. cbn [zip_with].
  match goal with |- 0 <= rsum (?a :: ?b) => change (0 <= a + rsum b) end. apply Rplus_le_le_0_compat; [apply item_info_psd; exact H|exact IH].
Qed.
(** Directions. *)
Lemma fsum_zip_fin {A B} (f : A -> B -> fl) (r : A -> B -> R) a b : (forall x y, In y b -> f x y = Some (Fin (r x y))) -> fsum (zip_with f a b) = Some (Fin (rsum (zip_with r a b))).
Proof.
  revert b; induction a as [|x a IH]; intros [|y b] H; [reflexivity..|]. unfold fsum, rsum in *. cbn [zip_with fold_right]. rewrite IH by (intros; apply H; right; assumption).
  rewrite H by (left; reflexivity). reflexivity.
Qed.
Lemma rsum_zip_seq (f : R -> nat -> R) c : rsum (zip_with f c (seq 0 (length c))) = sumn (length c) (fun i => f (nth i c 0) i).
Proof.
  assert (G : forall s, rsum (zip_with f c (seq s (length c))) = sumn (length c) (fun i => f (nth i c 0) (s + i)%nat)).
  { induction c as [|x c IH]; intros s; [reflexivity|]. cbn [length seq zip_with]. rewrite sumn_S_first. match goal with |- rsum (?a :: ?b) = _ => change (a + rsum b = f (nth 0 (x :: c) 0) (s + 0)%nat + sumn (length c) (fun i => f (nth (S i) (x :: c) 0) (s + S i)%nat)) end.
    rewrite IH. cbn [nth]. rewrite Nat.add_0_r. f_equal. apply sumn_ext. intros i _. replace (S s + i)%nat with (s + S i)%nat by lia. reflexivity. }
  apply G.
Qed.
Lemma zip_with_map_r {A B C D} (f : A -> C -> D) (h : B -> C) a b : zip_with f a (map h b) = zip_with (fun x y => f x (h y)) a b.
Proof. revert b; induction a as [|x a IH]; intros [|y b]; [reflexivity..|]. cbn [map zip_with]. rewrite IH. reflexivity. Qed.
Lemma direction_value c f : direction_information c (square (length c) f) = Some (Fin (quadratic_form (length c) f (fun i => nth i c 0))).
Proof.
  unfold direction_information, square. rewrite zip_with_map_r.
  rewrite (fsum_zip_fin _ (fun x i => sumn (length c) (fun j => x * f i j * nth j c 0))).
  - do 2 f_equal. rewrite rsum_zip_seq. reflexivity.
  - intros x i _. rewrite zip_with_map_r. rewrite (fsum_zip_fin _ (fun d j => x * f i j * d)) by reflexivity. do 2 f_equal. apply rsum_zip_seq.
Qed.

(** With true gradients the entries are expected products of the derivatives of the log-probabilities. *)
Lemma log_derivative (P : R -> R) x d : derivable_pt_lim P x d -> 0 < P x -> derivable_pt_lim (fun t => ln (P t)) x (d / P x).
Proof.
  intros D H. replace (d / P x) with (/ P x * d) by (unfold Rdiv; ring). apply (derivable_pt_lim_comp P ln x d (/ P x)); [exact D|]. apply derivable_pt_lim_ln. exact H.
Qed.
(** Change of the latent scale. *)
Lemma info_change_of_scale lv p g g' (J : nat -> nat -> R) v : length g = length g' -> length p = length g ->
  (forall k i, (k < length g)%nat -> (i < lv)%nat -> nth i (nth k g []) 0 = sumn lv (fun a => nth a (nth k g' []) 0 * J a i)) ->
  quadratic_form lv (item_info p g) v = quadratic_form lv (item_info p g') (fun a => sumn lv (fun i => J a i * v i)).
Proof.
  intros L1 L2 H. rewrite !item_info_form. revert g g' L1 L2 H; induction p as [|q p IH]; intros [|d g] [|d' g'] L1 L2 H; cbn [length] in *; try lia; [reflexivity|].
  cbn [zip_with]. match goal with |- rsum (?a :: ?b) = rsum (?c :: ?e) => change (a + rsum b = c + rsum e) end. f_equal.
  - destruct (Req_EM_T q 0); [reflexivity|]. do 2 f_equal.
    rewrite (sumn_ext _ _ (fun i => sumn lv (fun a => J a i * v i * nth a d' 0))).
    + rewrite sumn_swap. apply sumn_ext. intros a _. rewrite sumn_scal_r. reflexivity.
    + intros i Hi. pose proof (H 0%nat i ltac:(lia) Hi) as E0. cbn [nth] in E0. rewrite E0. rewrite <- sumn_scal. apply sumn_ext. intros a _. ring.
  - apply IH; [lia|lia|]. intros k i Hk Hi. apply (H (S k) i); lia.
Qed.

(** ** p-values *)
Lemma count_true_le l : (count_true l <= length l)%nat.
Proof. unfold count_true. induction l as [|[|] l IH]; cbn; lia. Qed.
Lemma ratio_range a b : (a <= b)%nat -> (0 < b)%nat -> exists r, ratio a b = Some r /\ r = INR a / INR b /\ 0 <= r <= 1.
Proof.
  intros H B. unfold ratio. destruct (Nat.eqb_spec b 0); [lia|]. eexists. split; [reflexivity|]. split; [reflexivity|].
  assert (0 < INR b) by (apply lt_0_INR; exact B). pose proof (le_INR _ _ H). pose proof (pos_INR a). split.
  - apply Rmult_le_pos; [assumption|left; apply Rinv_0_lt_compat; assumption].
  - apply Rmult_le_reg_r with (INR b); [assumption|]. unfold Rdiv. rewrite Rmult_assoc, Rinv_l, Rmult_1_r by lra. lra.
Qed.
Lemma q3_counts samples obs : (count_true (map (fun s => flt s obs) samples) + count_true (map (fun s => fge s obs) samples) <= length samples)%nat.
Proof.
  unfold count_true. induction samples as [|s l IH]; [cbn; lia|]. cbn [map filter length].
  destruct s as [s|], obs as [o|]; cbn [flt fge]; [destruct (ext_ltb s o); cbn [negb length]; lia|lia..].
Qed.
