(** Proofs about the parametric models, model by model. *)
From Verif Require Import Base BaseFacts RBase RFacts M_Logit S_Logit P_Logit.
Local Open Scope R_scope.

Lemma nth_error_map_Fin l p : nth_error (map Fin l) p = option_map Fin (nth_error l p).
Proof. apply nth_error_map. Qed.

Lemma cats_pos_bound (cats : list nat) i K : Forall (fun K => (1 <= K)%nat) cats -> nth_error cats i = Some K ->
  (1 <= K <= list_max cats)%nat /\ (i < length cats)%nat.
Proof.
  intros HF Hi. split.
  - rewrite Forall_forall in HF. apply nth_error_In in Hi. split; auto. now apply list_max_bound.
  - apply nth_error_Some; congruence.
Qed.

(** ** Constructors establish the shape invariants *)
Lemma relationships_ok items lv rel free : (0 < lv)%nat -> relationships items lv rel = Ok free ->
  length free = items /\ Forall (fun r => length r = lv) free.
Proof.
  intros Hlv H. destruct rel as [r|]; cbn in H.
  - destruct ((length r =? items)%nat && forallb (fun row => (length row =? lv)%nat) r) eqn:E; cbn in H; [|discriminate].
    destruct (forallb (existsb (fun b : bool => b)) r); cbn in H; [|discriminate]. injection H as <-.
    apply andb_true_iff in E as [E1 E2]. apply Nat.eqb_eq in E1. split; auto.
    rewrite forallb_forall in E2. apply Forall_forall; intros x Hx. apply Nat.eqb_eq. auto.
  - injection H as <-. rewrite repeat_length. split; auto.
    apply Forall_forall; intros x Hx. apply repeat_spec in Hx as ->. apply repeat_length.
Qed.
Lemma tpl_init_wf items lv rel m : (0 < lv)%nat -> tpl_init items lv rel = Ok m -> tpl_wf m /\ tpl_items m = items.
Proof.
  intros Hlv H. unfold tpl_init in H. destruct (relationships items lv rel) as [free|] eqn:E; [|discriminate].
  injection H as <-. destruct (relationships_ok _ _ _ _ Hlv E) as [H1 H2].
  unfold tpl_wf, tpl_items; cbn. rewrite !repeat_length. auto.
Qed.
Lemma thpl_init_wf items lv rel m : (0 < lv)%nat -> thpl_init items lv rel = Ok m -> thpl_wf m /\ thpl_items m = items.
Proof.
  intros Hlv H. unfold thpl_init in H. destruct (relationships items lv rel) as [free|] eqn:E; [|discriminate].
  injection H as <-. destruct (relationships_ok _ _ _ _ Hlv E) as [H1 H2].
  unfold thpl_wf, thpl_items; cbn. rewrite !repeat_length. repeat split; auto.
Qed.
Lemma gpc_init_wf cats lv rel m : (0 < lv)%nat -> Forall (fun K => (1 <= K)%nat) cats ->
  gpc_init cats lv rel = Ok m -> poly_wf m /\ p_cats m = cats.
Proof.
  intros Hlv Hc H. unfold gpc_init in H. destruct (relationships (length cats) lv rel) as [free|] eqn:E; [|discriminate].
  injection H as <-. destruct (relationships_ok _ _ _ _ Hlv E) as [H1 H2].
  unfold poly_wf, p_items; cbn. rewrite !repeat_length. split; auto. repeat split; auto. now apply sum_minus_length.
Qed.
Lemma nrm_init_wf cats lv rel w0 m : (0 < lv)%nat -> Forall (fun K => (1 <= K)%nat) cats ->
  nrm_init cats lv rel w0 = Ok m -> nrm_wf m /\ nrm_cats m = cats.
Proof.
  intros Hlv Hc H. unfold nrm_init in H. destruct (relationships (length cats) lv rel) as [free|] eqn:E; [|discriminate].
  injection H as <-. destruct (relationships_ok _ _ _ _ Hlv E) as [H1 H2].
  unfold nrm_wf, nrm_free, nrm_max; cbn. rewrite map_length, seq_length, repeat_length.
  split; auto. repeat split; auto. now apply sum_minus_length.
Qed.

(** ** Generalized partial credit *)
Lemma gpc_row m t row i K k :
  poly_wf m -> length t = p_lv m -> nth_error (gpc_forward m [t]) 0 = Some row ->
  nth_error (p_cats m) i = Some K -> (k < p_max m)%nat ->
  nth_error row (i * p_max m + k) =
    Some (if (k <? K)%nat
          then Fin (INR k * predictor (p_lv m) (slope (p_free m) (p_w m) i) t + intercept (p_cats m) (p_b m) i k)
          else NInf).
Proof.
  intros (Hlv & Hc & Hfl & Hfr & Hw & Hb) Ht Hr Hi Hk. cbn in Hr. injection Hr as <-.
  destruct (cats_pos_bound _ _ _ Hc Hi) as [HK Hil]. fold (p_max m) in HK.
  erewrite nth_error_set_mask by (apply nth_error_first_category; [exact Hil|exact Hk]).
  erewrite nth_error_set_mask by (apply nth_error_missing_category; eauto).
  rewrite nth_error_map_Fin, nth_error_zip_with, nth_error_zip_with.
  rewrite nth_error_repeat_interleave by auto.
  rewrite predictors_nth by (auto; rewrite Hfl; auto).
  rewrite nth_error_map.
  assert (Ht' : nth_error (tile (p_items m) (seq 0 (p_max m))) (i * p_max m + k) = Some k).
  { pose proof (nth_error_tile (p_items m) (seq 0 (p_max m)) i k) as H.
    rewrite seq_length in H. rewrite H by auto. rewrite nth_error_seq by auto. reflexivity. }
  rewrite Ht'. cbn [option_map].
  pose proof (nth_error_full_bias (p_cats m) (p_b m) i k K Hc Hb Hi Hk) as H.
  fold (p_max m) in H. rewrite H. cbn [option_map].
  destruct (Nat.eqb_spec k 0) as [->|Hk0].
  - destruct (Nat.leb_spec K 0); [lia|]. destruct (Nat.ltb_spec 0 K); [|lia]. cbn [option_map].
    do 2 f_equal. unfold intercept. cbn. ring.
  - destruct (Nat.leb_spec K k); destruct (Nat.ltb_spec k K); try lia; [reflexivity|].
    do 2 f_equal. ring.
Qed.

Lemma gpc_row_length m t : poly_wf m -> length t = p_lv m ->
  Forall (fun o => length o = (p_items m * p_max m)%nat) (gpc_forward m [t]).
Proof.
  intros (Hlv & Hc & Hfl & Hfr & Hw & Hb) Ht. constructor; [|constructor]. cbn.
  unfold set_mask. rewrite !zip_with_length, map_length, !zip_with_length, repeat_interleave_length, !map_length.
  rewrite first_category_length, missing_category_length, full_bias_length, free_bias_length.
  rewrite weight_matrix_length by auto. rewrite tile_length, seq_length. rewrite Hfl.
  unfold p_items. lia.
Qed.

Lemma forward_map_Forall {A B} (f : A -> B) (P : B -> Prop) (Q : A -> Prop) l :
  (forall a, Q a -> P (f a)) -> Forall Q l -> Forall P (map f l).
Proof. intros H HQ. induction HQ; cbn; constructor; auto. Qed.

Lemma gpc_probs_spec m thetas r t i K k :
  poly_wf m -> Forall (fun t => length t = p_lv m) thetas -> nth_error thetas r = Some t ->
  nth_error (p_cats m) i = Some K -> (k < p_max m)%nat ->
  at3 (gpc_probabilities m thetas) r i k =
    Some (Some (if (k <? K)%nat
      then category_probability K (fun k => INR k * predictor (p_lv m) (slope (p_free m) (p_w m) i) t
                                            + intercept (p_cats m) (p_b m) i k) k
      else 0)).
Proof.
  intros Hwf HF Hr Hi Hk. pose proof Hwf as (_ & Hc & _).
  destruct (cats_pos_bound _ _ _ Hc Hi) as [HK Hil].
  assert (Ht : length t = p_lv m) by (rewrite Forall_forall in HF; apply HF; eapply nth_error_In; eauto).
  unfold gpc_probabilities.
  eapply probabilities_pattern; auto.
  - unfold p_items; lia.
  - unfold gpc_forward. eapply forward_map_Forall; [|exact HF].
    intros a Ha. cbv beta in Ha. pose proof (gpc_row_length m a Hwf Ha) as H. inversion H; subst. assumption.
  - unfold gpc_forward. rewrite nth_error_map, Hr. reflexivity.
  - intros k' Hk'. exact (gpc_row m t _ i K k' Hwf Ht eq_refl Hi Hk').
Qed.

(** ** Two parameter logistic as the special case of two categories *)
Lemma first2_free n i k : (i < n)%nat -> (k < 2)%nat ->
  nth_error (map negb (first_category n 2)) (i * 2 + k) = Some (k =? 1)%nat.
Proof.
  intros Hi Hk. rewrite nth_error_map, nth_error_first_category by auto. cbn [option_map].
  destruct k as [|[|k]]; try reflexivity; lia.
Qed.
Lemma count_first2 n i k : (i < n)%nat -> (k < 2)%nat ->
  ctrue (firstn (i * 2 + k) (map negb (first_category n 2))) = i.
Proof.
  revert k; induction i as [|i IH]; intros k Hi Hk.
  - destruct k as [|[|k]]; [reflexivity| |lia].
    change (0 * 2 + 1)%nat with 1%nat. rewrite (ctrue_firstn_S _ _ (0 =? 1)%nat); [reflexivity|].
    apply (first2_free n 0 0); lia.
  - assert (E : ctrue (firstn (S i * 2 + 0) (map negb (first_category n 2))) = S i).
    { replace (S i * 2 + 0)%nat with (S (i * 2 + 1))%nat by lia.
      rewrite (ctrue_firstn_S _ _ (1 =? 1)%nat) by (apply first2_free; lia).
      rewrite (IH 1%nat) by lia. cbn. lia. }
    destruct k as [|[|k]]; [exact E| |lia].
    replace (S i * 2 + 1)%nat with (S (S i * 2 + 0))%nat by lia.
    rewrite (ctrue_firstn_S _ _ (0 =? 1)%nat) by (apply first2_free; lia). rewrite E. cbn. lia.
Qed.
Lemma ctrue_first2 n : ctrue (map negb (first_category n 2)) = n.
Proof.
  destruct n as [|n]; [reflexivity|].
  pose proof (count_first2 (S n) n 1 ltac:(lia) ltac:(lia)) as H.
  pose proof (ctrue_firstn_S (map negb (first_category (S n) 2)) (n * 2 + 1) true
                (first2_free (S n) n 1 ltac:(lia) ltac:(lia))) as H2. cbv iota in H2.
  rewrite firstn_all2 in H2 by (rewrite map_length, first_category_length; lia). lia.
Qed.
Lemma bias2 n b i k : length b = n -> (i < n)%nat -> (k < 2)%nat ->
  nth_error (full_bias (map negb (first_category n 2)) b) (i * 2 + k) = Some (if (k =? 1)%nat then nth i b 0 else 0).
Proof.
  intros Hb Hi Hk. unfold full_bias.
  assert (Hc : (ctrue (map negb (first_category n 2)) <= length b)%nat) by (rewrite ctrue_first2; lia).
  rewrite (nth_error_mask_scatter _ b _ _ _ (eq_sym (repeat_length 0 _)) Hc (first2_free n i k Hi Hk)).
  rewrite count_first2 by auto. destruct (k =? 1)%nat.
  - apply nth_error_nth_lt. lia.
  - apply nth_error_repeat_lt. rewrite map_length, first_category_length. now apply position_lt.
Qed.
Lemma bias2_length n b : length (full_bias (map negb (first_category n 2)) b) = (n * 2)%nat.
Proof. now rewrite full_bias_length, map_length, first_category_length. Qed.

(** Two categories with logits 0 and x. *)
Lemma category_probability_2 x k : (k < 2)%nat ->
  category_probability 2 (fun k => if (k =? 1)%nat then x else 0) k = if (k =? 1)%nat then logistic x else 1 - logistic x.
Proof.
  intro Hk. unfold category_probability. cbn [sumn]. rewrite logistic_exp.
  pose proof (exp_pos x). destruct k as [|[|k]]; [| |lia]; cbn [Nat.eqb]; rewrite exp_0; field; lra.
Qed.

Lemma two_category_pattern n (out : list (list ext)) r row i x k :
  (0 < n)%nat -> Forall (fun o => length o = (n * 2)%nat) out -> nth_error out r = Some row -> (i < n)%nat ->
  (forall k, (k < 2)%nat -> nth_error row (i * 2 + k) = Some (Fin (if (k =? 1)%nat then x else 0))) ->
  (k < 2)%nat ->
  at3 (probabilities_from_output n 2 out) r i k = Some (Some (if (k =? 1)%nat then logistic x else 1 - logistic x)).
Proof.
  intros Hn HF Hr Hi H Hk.
  assert (H' : forall k', (k' < 2)%nat -> nth_error row (i * 2 + k') =
             Some (if (k' <? 2)%nat then Fin (if (k' =? 1)%nat then x else 0) else NInf)).
  { intros k' Hk'. rewrite H by auto. destruct (Nat.ltb_spec k' 2); [reflexivity|lia]. }
  rewrite (probabilities_pattern n 2 out r row i 2 (fun k => if (k =? 1)%nat then x else 0)) by auto.
  destruct (Nat.ltb_spec k 2); [|lia]. now rewrite category_probability_2.
Qed.

Lemma tpl_probs_spec m thetas r t i k :
  tpl_wf m -> Forall (fun t => length t = tpl_lv m) thetas -> nth_error thetas r = Some t ->
  (i < tpl_items m)%nat -> (k < 2)%nat ->
  let p := logistic (predictor (tpl_lv m) (slope (tpl_free m) (tpl_w m) i) t + nth i (tpl_b m) 0) in
  at3 (tpl_probabilities m thetas) r i k = Some (Some (if (k =? 1)%nat then p else 1 - p)).
Proof.
  intros (Hlv & Hfr & Hw & Hb) HF Hr Hi Hk p.
  assert (Ht : length t = tpl_lv m) by (rewrite Forall_forall in HF; apply HF; eapply nth_error_In; eauto).
  eapply two_category_pattern; auto; [lia| | |].
  - unfold tpl_forward. eapply forward_map_Forall; [|exact HF]. intros a Ha.
    unfold set_mask. rewrite zip_with_length, map_length, zip_with_length, repeat_interleave_length, map_length.
    rewrite first_category_length, bias2_length, weight_matrix_length by auto. unfold tpl_items. lia.
  - unfold tpl_forward. rewrite nth_error_map, Hr. reflexivity.
  - intros k' Hk'. erewrite nth_error_set_mask by (apply nth_error_first_category; eauto).
    rewrite nth_error_map_Fin, nth_error_zip_with, nth_error_repeat_interleave by auto.
    rewrite predictors_nth by auto. rewrite bias2 by auto. cbn [option_map].
    destruct k' as [|[|k']]; [| |lia]; cbn [Nat.eqb option_map]; reflexivity.
Qed.

Lemma opl_probs_spec m thetas r t i k :
  length (opl_b m) = opl_items m -> nth_error thetas r = Some t -> (i < opl_items m)%nat -> (k < 2)%nat ->
  let p := logistic (t + nth i (opl_b m) 0) in
  at3 (opl_probabilities m thetas) r i k = Some (Some (if (k =? 1)%nat then p else 1 - p)).
Proof.
  intros Hb Hr Hi Hk p.
  eapply two_category_pattern; auto; [lia| | |].
  - unfold opl_forward. apply Forall_forall. intros o Ho. apply in_map_iff in Ho as [a [<- _]].
    unfold set_mask. rewrite zip_with_length, map_length, first_category_length. unfold opl_free_bias.
    rewrite bias2_length. lia.
  - unfold opl_forward. rewrite nth_error_map, Hr. reflexivity.
  - intros k' Hk'. erewrite nth_error_set_mask by (apply nth_error_first_category; eauto).
    rewrite nth_error_map. unfold opl_free_bias. rewrite bias2 by auto. cbn [option_map].
    destruct k' as [|[|k']]; [| |lia]; cbn [Nat.eqb option_map]; reflexivity.
Qed.

(** Monotonicity of the predictor. *)
Lemma predictor_diff lv a t t' d : (d < lv)%nat -> increases_in d t t' ->
  predictor lv a t' - predictor lv a t = a d * (nth d t' 0 - nth d t 0).
Proof.
  intros Hd (_ & _ & He). unfold predictor. rewrite <- sumn_minus.
  rewrite (sumn_single lv d); auto.
  - ring.
  - intros k Hk Hne. rewrite (He k Hne). ring.
Qed.
Lemma predictor_incr lv a t t' d : (d < lv)%nat -> increases_in d t t' -> 0 < a d -> predictor lv a t < predictor lv a t'.
Proof.
  intros Hd Hi Ha. pose proof (predictor_diff lv a t t' d Hd Hi). destruct Hi as (_ & Hlt & _).
  assert (0 < a d * (nth d t' 0 - nth d t 0)) by (apply Rmult_lt_0_compat; lra). lra.
Qed.
Lemma predictor_decr lv a t t' d : (d < lv)%nat -> increases_in d t t' -> a d < 0 -> predictor lv a t' < predictor lv a t.
Proof.
  intros Hd Hi Ha. pose proof (predictor_diff lv a t t' d Hd Hi). destruct Hi as (_ & Hlt & _).
  assert (0 < (- a d) * (nth d t' 0 - nth d t 0)) by (apply Rmult_lt_0_compat; lra). lra.
Qed.
Lemma predictor_const lv a t t' d : (d < lv)%nat -> increases_in d t t' -> a d = 0 -> predictor lv a t' = predictor lv a t.
Proof.
  intros Hd Hi Ha. pose proof (predictor_diff lv a t t' d Hd Hi). rewrite Ha in H. lra.
Qed.

(** ** Three parameter logistic *)
Lemma thpl_probs_spec m thetas r t i k :
  thpl_wf m -> Forall (fun t => length t = thpl_lv m) thetas -> nth_error thetas r = Some t ->
  (i < thpl_items m)%nat -> (k < 2)%nat ->
  let c := logistic (nth i (thpl_g m) 0) in
  let p := c + (1 - c) * logistic (predictor (thpl_lv m) (slope (thpl_free m) (thpl_w m) i) t + nth i (thpl_b m) 0) in
  at3 (thpl_probabilities m thetas) r i k = Some (if (k =? 1)%nat then p else 1 - p).
Proof.
  intros (Hlv & Hfr & Hw & Hb & Hg) HF Hr Hi Hk c p.
  assert (Ht : length t = thpl_lv m) by (rewrite Forall_forall in HF; apply HF; eapply nth_error_In; eauto).
  unfold at3, at2, thpl_probabilities, thpl_probs, thpl_forward.
  rewrite !nth_error_map, Hr. cbn [option_map]. rewrite nth_error_map.
  assert (E : nth_error (zip_with Rplus (zip_with Rmult (map logistic (zip_with Rplus
      (map (dot t) (weight_matrix (thpl_free m) (thpl_lv m) (thpl_w m))) (thpl_b m)))
      (map (fun c => 1 - c) (map logistic (thpl_g m)))) (map logistic (thpl_g m))) i = Some p).
  { rewrite !nth_error_zip_with, !nth_error_map, nth_error_zip_with.
    rewrite predictors_nth by auto. rewrite (nth_error_nth_lt (thpl_b m) i 0) by lia.
    rewrite (nth_error_nth_lt (thpl_g m) i 0) by lia. cbn [option_map]. f_equal. unfold p, c. ring. }
  rewrite E. cbn [option_map]. destruct k as [|[|k]]; [reflexivity|reflexivity|lia].
Qed.

(** ** Graded response *)
Lemma grm_row m t i K k :
  poly_wf m -> length t = p_lv m -> nth_error (p_cats m) i = Some K -> (k < p_max m)%nat ->
  exists row, grm_forward m [t] = [row] /\ length row = (p_items m * p_max m)%nat /\
  nth_error row (i * p_max m + k) =
    Some (if (k =? 0)%nat then PInf else if (k <? K)%nat
          then Fin (predictor (p_lv m) (slope (p_free m) (p_w m) i) t + intercept (p_cats m) (p_b m) i k)
          else NInf).
Proof.
  intros (Hlv & Hc & Hfl & Hfr & Hw & Hb) Ht Hi Hk. unfold grm_forward; cbn [map]. eexists; split; [reflexivity|].
  destruct (cats_pos_bound _ _ _ Hc Hi) as [HK Hil]. fold (p_max m) in HK.
  split.
  - unfold set_mask. rewrite !zip_with_length, map_length, !zip_with_length, repeat_interleave_length, !map_length.
    rewrite first_category_length, missing_category_length, full_bias_length, free_bias_length.
    rewrite weight_matrix_length by auto. rewrite Hfl. unfold p_items. lia.
  - erewrite nth_error_set_mask by (apply nth_error_first_category; [exact Hil|exact Hk]).
    erewrite nth_error_set_mask by (apply nth_error_missing_category; eauto).
    rewrite nth_error_map_Fin, nth_error_zip_with.
    rewrite nth_error_repeat_interleave by auto.
    rewrite predictors_nth by (auto; rewrite Hfl; auto).
    pose proof (nth_error_full_bias (p_cats m) (p_b m) i k K Hc Hb Hi Hk) as H.
    fold (p_max m) in H. rewrite H. cbn [option_map].
    destruct (Nat.eqb_spec k 0) as [->|Hk0].
    + destruct (K <=? 0)%nat; reflexivity.
    + destruct (Nat.leb_spec K k); destruct (Nat.ltb_spec k K); try lia; reflexivity.
Qed.

Lemma removelast_length {A} (l : list A) : length (removelast l) = (length l - 1)%nat.
Proof.
  induction l as [|a l IH]; [reflexivity|]. cbn. destruct l; [reflexivity|]. cbn in *. lia.
Qed.
Lemma nth_error_removelast {A} (l : list A) k : (S k < length l)%nat -> nth_error (removelast l) k = nth_error l k.
Proof.
  revert k; induction l as [|a l IH]; intros k H; [cbn in H; lia|].
  cbn [removelast]. destruct l as [|b l]; [cbn in H; lia|].
  destruct k; [reflexivity|]. cbn [nth_error]. apply IH. cbn in *; lia.
Qed.
Lemma nth_error_tl {A} (l : list A) k : nth_error (tl l) k = nth_error l (S k).
Proof. destruct l; [destruct k; reflexivity|reflexivity]. Qed.
Lemma grm_diff_nth geq M g k : length geq = M -> (forall k, (k < M)%nat -> nth_error geq k = Some (g k)) -> (k < M)%nat ->
  nth_error (grm_diff geq) k = Some (g k - (if (S k <? M)%nat then g (S k) else 0)).
Proof.
  intros Hl Hg Hk. unfold grm_diff.
  assert (HL : length (zip_with Rminus (removelast geq) (tl geq)) = (M - 1)%nat).
  { rewrite zip_with_length, removelast_length. destruct geq; cbn in *; lia. }
  destruct (Nat.ltb_spec (S k) M) as [H|H].
  - rewrite nth_error_app1 by lia. rewrite nth_error_zip_with, nth_error_removelast by lia.
    rewrite nth_error_tl, !Hg by lia. reflexivity.
  - rewrite nth_error_app2 by lia. rewrite HL, Hl, nth_error_skipn_add.
    replace (M - 1 + (k - (M - 1)))%nat with k by lia. rewrite Hg by auto. f_equal. ring.
Qed.


Lemma grm_probs_spec m thetas r t i K k :
  poly_wf m -> Forall (fun t => length t = p_lv m) thetas -> nth_error thetas r = Some t ->
  nth_error (p_cats m) i = Some K -> (k < p_max m)%nat ->
  let z k := predictor (p_lv m) (slope (p_free m) (p_w m) i) t + intercept (p_cats m) (p_b m) i k in
  at3 (grm_probabilities m thetas) r i k = Some (geq_probability K z k - geq_probability K z (S k)).
Proof.
  intros Hwf HF Hr Hi Hk z. pose proof Hwf as (_ & Hc & _).
  destruct (cats_pos_bound _ _ _ Hc Hi) as [HK Hil]. fold (p_max m) in HK.
  assert (Ht : length t = p_lv m) by (rewrite Forall_forall in HF; apply HF; eapply nth_error_In; eauto).
  assert (Hlen : Forall (fun o => length o = (p_items m * p_max m)%nat) (grm_forward m thetas)).
  { unfold grm_forward. eapply forward_map_Forall; [|exact HF]. intros a Ha. cbv beta in Ha.
    destruct (grm_row m a i K k Hwf Ha Hi Hk) as (row & E & El & _). cbn in E. injection E as <-. exact El. }
  destruct (grm_row m t i K k Hwf Ht Hi Hk) as (row & E & El & _).
  assert (Hrow : nth_error (grm_forward m thetas) r = Some row).
  { unfold grm_forward in *. rewrite nth_error_map, Hr. cbn in E. injection E as <-. reflexivity. }
  unfold grm_probabilities, grm_probs. rewrite concat_map.
  pose proof (map_blocks_nth grm_diff (p_items m) (p_max m) (map (map sigmoid_ext) (grm_forward m thetas)) r i
                (map sigmoid_ext row) ltac:(unfold p_items in *; lia) ltac:(lia)) as H.
  assert (H1 : Forall (fun o => length o = (p_items m * p_max m)%nat) (map (map sigmoid_ext) (grm_forward m thetas))).
  { eapply forward_map_Forall; [|exact Hlen]. intros a Ha. now rewrite map_length. }
  specialize (H H1). rewrite nth_error_map, Hrow in H. specialize (H eq_refl Hil).
  unfold at3, at2 in *. destruct (nth_error (blocks (p_items m) _) r); [|discriminate]. rewrite H.
  rewrite (grm_diff_nth _ (p_max m) (geq_probability K z)).
  - f_equal. destruct (Nat.ltb_spec (S k) (p_max m)); [reflexivity|].
    unfold geq_probability. cbn [Nat.eqb]. destruct (Nat.ltb_spec (S k) K); [lia|reflexivity].
  - rewrite firstn_length, skipn_length, map_length, El.
    assert (p_max m <= p_items m * p_max m - i * p_max m)%nat by (unfold p_items in *; nia). lia.
  - intros k' Hk'. rewrite nth_error_firstn_lt, nth_error_skipn_add, nth_error_map by auto.
    destruct (grm_row m t i K k' Hwf Ht Hi Hk') as (row' & E' & _ & Hn).
    rewrite E in E'. injection E' as <-. rewrite Hn. cbn [option_map]. f_equal.
    unfold geq_probability. destruct (k' =? 0)%nat; [reflexivity|]. destruct (k' <? K)%nat; reflexivity.
  - exact Hk.
Qed.
