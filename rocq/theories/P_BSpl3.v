(** Proofs: the forward pass of a monotone B-spline model. *)
From Coq Require Import String.
From Verif Require Import Base BaseFacts RBase RFacts M_Logit S_Logit M_Mono M_Scale M_BSpl S_BSpl P_Logit P_Logit2 P_Logit4 P_Mono1 P_Mono8 P_BSpl1 P_BSpl2.
Import List.
Local Open Scope R_scope.

(** ** The basis of a batch *)
Lemma spline_basis_ok lv p knots theta : (0 < lv)%nat -> theta <> [] -> Forall (fun t => length t = lv) theta ->
  exists basis, spline_basis lv p knots theta = Ok basis /\ length (nth 0 basis []) = length theta /\
    forall r t d b, nth_error theta r = Some t -> (d < lv)%nat -> (b < n_bases p knots)%nat ->
      nth b (nth r (nth d basis []) []) 0 = bbasis (fun j => nth j knots 0) p b (logistic (nth d t 0)).
Proof.
  intros Hlv Hne HF. set (N := length theta). assert (HN : (0 < N)%nat) by (unfold N; destruct theta; [congruence|cbn; lia]).
  assert (Hc : ncols theta = lv) by (unfold ncols; destruct theta; [congruence|]; inversion HF; assumption).
  set (cols := map (fun d => map (basis_row p knots) (map logistic (column 0 d theta))) (seq 0 lv)).
  assert (HFc : Forall (fun l : list (list R) => length l = N) cols).
  { apply Forall_forall. intros l Hl. apply in_map_iff in Hl as (d & <- & _). unfold column. now rewrite !map_length. }
  assert (Hr : map (basis_row p knots) (map logistic (concat (transpose theta))) = concat cols).
  { unfold transpose, cols. rewrite Hc. rewrite !concat_map, !map_map. reflexivity. }
  assert (Hl : length (concat cols) = (lv * N)%nat).
  { rewrite (length_concat_const _ N HFc). unfold cols. now rewrite map_length, seq_length. }
  exists cols. unfold spline_basis. rewrite Hr, Hl.
  destruct (Nat.eqb_spec (lv * N) 0); [nia|]. rewrite Nat.mul_comm, Nat.mod_mul by lia. rewrite Nat.eqb_refl. cbn [orb negb].
  rewrite Nat.div_mul by lia. split; [|split].
  - f_equal. apply blocks_flat; auto.
  - unfold cols. destruct lv as [|lv]; [lia|]. cbn [seq map nth]. unfold column. now rewrite !map_length.
  - intros r t d b Hrt Hd Hb. assert (Ed : nth_error cols d = Some (map (basis_row p knots) (map logistic (column 0 d theta)))).
    { unfold cols. now rewrite nth_error_map_seq. }
    rewrite (nth_error_nth _ _ [] Ed).
    assert (Er : nth_error (map (basis_row p knots) (map logistic (column 0 d theta))) r = Some (basis_row p knots (logistic (nth d t 0)))).
    { unfold column. rewrite !nth_error_map, Hrt. reflexivity. }
    rewrite (nth_error_nth _ _ [] Er). unfold basis_row.
    apply nth_error_nth. now rewrite nth_error_map_seq.
Qed.

(** ** Parameters *)
Lemma bs_mask_rows n cats : bs_mask n cats = concat (repeat (free_bias cats (list_max cats)) n).
Proof.
  unfold bs_mask. f_equal. f_equal. set (M := list_max cats). apply nth_error_ext. intro q.
  assert (HFc : Forall (fun l : list bool => length l = M) (map (fun K => map (fun k => (1 <=? k)%nat && (k <? K)%nat) (seq 0 M)) cats)).
  { apply Forall_forall. intros l Hl. apply in_map_iff in Hl as (K & <- & _). now rewrite map_length, seq_length. }
  assert (Hl : length (concat (map (fun K => map (fun k => (1 <=? k)%nat && (k <? K)%nat) (seq 0 M)) cats)) = (length cats * M)%nat).
  { rewrite (length_concat_const _ M HFc). now rewrite map_length. }
  destruct (Nat.lt_ge_cases q (length cats * M)) as [H|H].
  - assert (HM : (0 < M)%nat) by nia. set (i := (q / M)%nat). set (k := (q mod M)%nat).
    assert (Eq : q = (i * M + k)%nat) by (unfold i, k; rewrite Nat.mul_comm; apply Nat.div_mod; lia).
    assert (Hk : (k < M)%nat) by (apply Nat.mod_upper_bound; lia). assert (Hi : (i < length cats)%nat) by nia.
    destruct (nth_error cats i) as [K|] eqn:EK; [|apply nth_error_None in EK; lia].
    rewrite Eq. rewrite (nth_error_free_bias cats M i k K EK Hk).
    rewrite (nth_error_concat_const _ M i k (map (fun k => (1 <=? k)%nat && (k <? K)%nat) (seq 0 M))); auto.
    + now rewrite nth_error_map_seq.
    + now rewrite nth_error_map, EK.
  - rewrite (proj2 (nth_error_None _ _)) by lia. symmetry. apply nth_error_None. rewrite free_bias_length. exact H.
Qed.
Lemma ctrue_concat_repeat l n : ctrue (concat (repeat l n)) = (n * ctrue l)%nat.
Proof. induction n as [|n IH]; [reflexivity|]. cbn [repeat concat]. rewrite ctrue_app, IH. lia. Qed.
Lemma firstn_concat_repeat {A} (l : list A) n b q : (b < n)%nat -> (q <= length l)%nat ->
  firstn (b * length l + q) (concat (repeat l n)) = concat (repeat l b) ++ firstn q l.
Proof.
  revert b. induction n as [|n IH]; intros b Hb Hq; [lia|]. destruct b as [|b].
  - cbn [repeat concat Nat.mul Nat.add app]. rewrite firstn_app. replace (q - length l)%nat with 0%nat by lia. now rewrite firstn_O, app_nil_r.
  - cbn [repeat concat]. replace (S b * length l + q)%nat with (length l + (b * length l + q))%nat by lia.
    rewrite firstn_app_2, IH by lia. now rewrite app_assoc.
Qed.
Lemma category_increment cats n coef b i k K : Forall (fun K => (1 <= K)%nat) cats -> nth_error cats i = Some K ->
  (k < list_max cats)%nat -> (b < n)%nat -> length coef = ctrue (bs_mask n cats) ->
  nth ((b * length cats + i) * list_max cats + k) (mask_scatter (bs_mask n cats) (map softplus coef) (repeat 0 (length (bs_mask n cats)))) 0 =
  if (1 <=? k)%nat && (k <? K)%nat
  then softplus (nth (b * list_sum (map pred cats) + (list_sum (firstn i (map pred cats)) + (k - 1))) coef 0) else 0.
Proof.
  intros HF Hi Hk Hb Hc. set (M := list_max cats) in *. set (row := free_bias cats M).
  assert (HF' : Forall (fun K => (1 <= K <= M)%nat) cats).
  { rewrite Forall_forall in *. intros K' HK. split; auto. now apply list_max_bound. }
  assert (HK : (1 <= K <= M)%nat) by (rewrite Forall_forall in HF'; apply HF'; eapply nth_error_In; eauto).
  assert (Hil : (i < length cats)%nat) by (apply nth_error_Some; congruence).
  assert (Hrl : length row = (length cats * M)%nat) by apply free_bias_length.
  assert (Hq : (i * M + k < length row)%nat) by (rewrite Hrl; nia).
  assert (Em : bs_mask n cats = concat (repeat row n)) by apply bs_mask_rows.
  assert (Hr : ctrue row = list_sum (map pred cats)) by (now apply ctrue_free_bias).
  assert (Ep : ((b * length cats + i) * M + k = b * length row + (i * M + k))%nat) by (rewrite Hrl; ring).
  assert (HFr : Forall (fun l : list bool => length l = length row) (repeat row n)).
  { apply Forall_forall. intros l Hl. apply repeat_spec in Hl. now subst. }
  assert (Eb : nth_error (bs_mask n cats) ((b * length cats + i) * M + k) = Some ((1 <=? k)%nat && (k <? K)%nat)).
  { rewrite Em, Ep. rewrite (nth_error_concat_const _ (length row) b (i * M + k) row); auto.
    - now apply nth_error_free_bias.
    - now apply nth_error_repeat_lt. }
  assert (Hcm : (ctrue (bs_mask n cats) <= length (map softplus coef))%nat) by (rewrite map_length; lia).
  pose proof (nth_error_mask_scatter (bs_mask n cats) (map softplus coef) (repeat 0 (length (bs_mask n cats))) _ _ (eq_sym (repeat_length 0 _)) Hcm Eb) as E.
  destruct ((1 <=? k)%nat && (k <? K)%nat) eqn:Ek.
  - apply andb_true_iff in Ek as [E1 E2]. apply Nat.leb_le in E1. apply Nat.ltb_lt in E2.
    assert (Ec : ctrue (firstn ((b * length cats + i) * M + k) (bs_mask n cats)) = (b * list_sum (map pred cats) + (list_sum (firstn i (map pred cats)) + (k - 1)))%nat).
    { rewrite Em, Ep, firstn_concat_repeat by (auto; lia). rewrite ctrue_app, ctrue_concat_repeat, Hr. f_equal.
      unfold row. rewrite (count_free_bias cats M i k K) by (auto; lia). f_equal. lia. }
    pose proof (ctrue_firstn_lt _ _ Eb) as Hlt. rewrite Ec in Hlt, E. apply nth_error_nth. rewrite E, nth_error_map.
    rewrite (nth_error_nth_lt coef _ 0) by lia. reflexivity.
  - apply nth_error_nth. rewrite E. apply nth_error_repeat_lt. rewrite Em, Ep.
    rewrite (length_concat_const _ (length row) HFr), repeat_length. nia.
Qed.

(** Shape invariant. *)
Definition bs_ok (m : bspl) : Prop :=
  (0 < bs_lv m)%nat /\ Forall (fun K => (1 <= K)%nat) (bs_cats m) /\ (bs_by_item m = true \/ bs_lv m = 1%nat) /\
  (bs_by_item m = false -> length (bs_coef m) = ctrue (bs_mask (bs_n m) (bs_cats m))) /\
  length (bs_bias m) = list_sum (map pred (bs_cats m)) /\ bs_basis m = None.
Lemma bs_value_logit m B t i k K : bs_ok m -> nth_error (bs_cats m) i = Some K -> (k < K)%nat ->
  (forall d b, (d < bs_lv m)%nat -> (b < bs_n m)%nat -> B d b = bbasis (fun j => nth j (bs_knots m) 0) (bs_degree m) b (logistic (nth d t 0))) ->
  bs_value m B i k + intercept (bs_cats m) (bs_bias m) i k = bspline_logit m t i k.
Proof.
  intros (H1 & H2 & H3 & H4 & H5 & H6) Hi Hk HB. unfold bspline_logit. f_equal. unfold bs_value.
  assert (HKM : (K <= list_max (bs_cats m))%nat) by (apply list_max_bound; eapply nth_error_In; eauto).
  destruct (bs_by_item m) eqn:Em.
  - rewrite <- sumn_scal. apply sumn_ext. intros d Hd. rewrite Rmult_comm. f_equal. unfold spline_value. fold (bs_n m).
    apply sumn_ext. intros b Hb. rewrite HB by auto. reflexivity.
  - destruct H3 as [H3|H3]; [discriminate|]. rewrite H3. rewrite (sumn_single 1 0) by (lia || (intros; lia)). rewrite sumn_S_first.
    assert (Ez : forall b, (b < bs_n m)%nat -> forall c, (c < list_max (bs_cats m))%nat -> bs_category_coef m b i c =
      sumn (S b) (fun j => if (1 <=? c)%nat && (c <? K)%nat then softplus (own_increment m i c j) else 0)).
    { intros b Hb c Hc. unfold bs_category_coef. cbv zeta. apply sumn_ext. intros b' Hb'. unfold bs_items, bs_max.
      rewrite (category_increment (bs_cats m) (bs_n m) (bs_coef m) b' i c K) by (auto; lia). reflexivity. }
    rewrite (sumn_ext (bs_n m) (fun b => B 0%nat b * bs_category_coef m b i 0) (fun _ => 0)).
    + rewrite sumn_0, Rplus_0_l. apply sumn_ext. intros c Hc. unfold spline_value. fold (bs_n m). apply sumn_ext. intros b Hb.
      rewrite HB by lia. f_equal. rewrite Ez by lia. apply sumn_ext. intros j Hj.
      destruct (Nat.ltb_spec (S c) K); [reflexivity|lia].
    + intros b Hb. rewrite Ez by lia. cbn [Nat.leb andb]. rewrite sumn_0. ring.
Qed.
Lemma bs_logits_at m B t i k K : bs_ok m -> nth_error (bs_cats m) i = Some K -> (k < bs_max m)%nat ->
  (forall d b, (d < bs_lv m)%nat -> (b < bs_n m)%nat -> B d b = bbasis (fun j => nth j (bs_knots m) 0) (bs_degree m) b (logistic (nth d t 0))) ->
  at2 (bs_logits m B) i k = Some (if (k <? K)%nat then Fin (bspline_logit m t i k) else NInf).
Proof.
  intros Hm Hi Hk HB. pose proof Hm as (H1 & H2 & H3 & H4 & H5 & H6). assert (Hil : (i < bs_items m)%nat) by (apply nth_error_Some; unfold bs_items in *; congruence).
  unfold at2, bs_logits. cbv zeta. rewrite nth_error_map_seq by auto. rewrite nth_error_map_seq by auto. cbn [Nat.add]. f_equal.
  rewrite (nth_error_nth _ _ false (nth_error_missing_category (bs_cats m) (bs_max m) i k K Hi Hk)).
  destruct (Nat.leb_spec K k) as [H|H]; destruct (Nat.ltb_spec k K) as [G|G]; try lia; [reflexivity|]. f_equal.
  unfold bs_max in *. rewrite (nth_error_nth _ _ 0 (nth_error_full_bias (bs_cats m) (bs_bias m) i k K H2 H5 Hi Hk)).
  now apply bs_value_logit with K.
Qed.
Lemma bs_forward_ok m theta : bs_ok m -> theta <> [] -> Forall (fun t => length t = bs_lv m) theta ->
  exists out, bs_forward m theta = Ok out /\ length out = length theta /\ Forall (fun o => length o = bs_items m) out /\
    Forall (Forall (fun o => length o = bs_max m)) out /\
    forall r t i k K, nth_error theta r = Some t -> nth_error (bs_cats m) i = Some K -> (k < bs_max m)%nat ->
      at3 out r i k = Some (if (k <? K)%nat then Fin (bspline_logit m t i k) else NInf).
Proof.
  intros Hm Hne HF. pose proof Hm as (H1 & H2 & H3 & H4 & H5 & H6).
  destruct (spline_basis_ok (bs_lv m) (bs_degree m) (bs_knots m) theta H1 Hne HF) as (basis & Eb & Hl & Hb).
  unfold bs_forward. rewrite H6, Eb. cbn [bind]. unfold bs_evaluate.
  replace (negb (bs_by_item m) && negb (bs_lv m =? 1)%nat) with false by (destruct H3 as [E3|E3]; rewrite E3; [|rewrite Nat.eqb_refl, andb_false_r]; reflexivity).
  eexists. split; [reflexivity|]. rewrite Hl. split; [now rewrite map_length, seq_length|]. split; [|split].
  - apply Forall_forall. intros o Ho. apply in_map_iff in Ho as (r & <- & _). unfold bs_logits. now rewrite map_length, seq_length.
  - apply Forall_forall. intros o Ho. apply in_map_iff in Ho as (r & <- & _). unfold bs_logits. apply Forall_forall. intros l Hl'. apply in_map_iff in Hl' as (i & <- & _). now rewrite map_length, seq_length.
  - intros r t i k K Hr Hi Hk. unfold at3. assert (Hrl : (r < length theta)%nat) by (apply nth_error_Some; congruence).
    rewrite nth_error_map_seq by auto. cbn [Nat.add]. apply bs_logits_at; auto.
Qed.
Lemma bs_probabilities_ok m theta : bs_ok m -> theta <> [] -> Forall (fun t => length t = bs_lv m) theta ->
  exists probs, bs_probabilities m theta = Ok probs /\ length probs = length theta /\
    forall r t i k K, nth_error theta r = Some t -> nth_error (bs_cats m) i = Some K -> (k < bs_max m)%nat ->
      at3 probs r i k = Some (Some (if (k <? K)%nat then category_probability K (bspline_logit m t i) k else 0)).
Proof.
  intros Hm Hne HF. pose proof Hm as (_ & H2 & _). destruct (bs_forward_ok m theta Hm Hne HF) as (out & E & Hl & F1 & F2 & Ha).
  unfold bs_probabilities. rewrite E. cbn [rmap]. eexists. split; [reflexivity|]. split; [now rewrite map_length|].
  intros r t i k K Hr Hi Hk. pose proof (fun k' Hk' => Ha r t i k' K Hr Hi Hk') as Hz. unfold at3, at2 in *. rewrite nth_error_map.
  destruct (nth_error out r) as [o|] eqn:Eo; [|specialize (Hz k Hk); discriminate]. cbn [option_map]. rewrite nth_error_map.
  destruct (nth_error o i) as [l|] eqn:El; [|specialize (Hz k Hk); discriminate]. cbn [option_map].
  apply (softmax_pattern l K (bs_max m)); auto.
  - rewrite Forall_forall in H2. split; [apply H2; eapply nth_error_In; eauto|]. apply list_max_bound. eapply nth_error_In; eauto.
  - rewrite Forall_forall in F2. apply nth_error_In in Eo. specialize (F2 o Eo). rewrite Forall_forall in F2. apply F2. eapply nth_error_In; eauto.
Qed.

(** ** Order in the latent scores *)
Lemma logit_step m t i k : (bs_by_item m = true \/ bs_lv m = 1%nat) ->
  bspline_logit m t i (S k) - bspline_logit m t i k =
  (if bs_by_item m then sumn (bs_lv m) (fun d => spline_value (bs_degree m) (bs_knots m) (shared_increment m d i) (nth d t 0))
   else spline_value (bs_degree m) (bs_knots m) (own_increment m i (S k)) (nth 0 t 0))
  + (intercept (bs_cats m) (bs_bias m) i (S k) - intercept (bs_cats m) (bs_bias m) i k).
Proof.
  intros H. unfold bspline_logit. destruct (bs_by_item m).
  - rewrite S_INR. ring.
  - cbn [sumn]. ring.
Qed.
Lemma increases_le d t t' e : increases_in d t t' -> nth e t 0 <= nth e t' 0.
Proof. intros (H1 & H2 & H3). destruct (Nat.eq_dec e d) as [->|N]; [lra|]. rewrite (H3 e N). lra. Qed.
Lemma logit_step_monotone m knots t t' d i k : bs_ok m -> bs_knots m = knot_vector (bs_degree m) knots -> in_order (user_knots knots) ->
  (d < bs_lv m)%nat -> increases_in d t t' ->
  bspline_logit m t i (S k) - bspline_logit m t i k <= bspline_logit m t' i (S k) - bspline_logit m t' i k /\
  ((0 < bs_degree m)%nat -> bspline_logit m t i (S k) - bspline_logit m t i k < bspline_logit m t' i (S k) - bspline_logit m t' i k).
Proof.
  intros (H1 & H2 & H3 & _) Hkn Ho Hd Hinc. rewrite !logit_step by auto. rewrite Hkn. pose proof (increases_le d t t') as Hle.
  assert (Hlt : nth d t 0 < nth d t' 0) by apply Hinc.
  destruct (bs_by_item m) eqn:Em.
  - assert (Hs : forall e, (e < bs_lv m)%nat -> spline_value (bs_degree m) (knot_vector (bs_degree m) knots) (shared_increment m e i) (nth e t 0) <= spline_value (bs_degree m) (knot_vector (bs_degree m) knots) (shared_increment m e i) (nth e t' 0)).
    { intros e He. apply spline_monotone; auto. }
    split.
    + apply Rplus_le_compat_r. apply sumn_le. exact Hs.
    + intro Hp. apply Rplus_lt_compat_r. apply Rminus_gt_0_lt. rewrite <- sumn_minus. apply sumn_pos_one with d; auto.
      * intros e He. specialize (Hs e He). lra.
      * pose proof (spline_increasing (bs_degree m) knots Ho (shared_increment m d i) _ _ Hp Hlt). lra.
  - destruct H3 as [H3|H3]; [discriminate|]. assert (d = 0)%nat by lia. subst d. split.
    + apply Rplus_le_compat_r. apply spline_monotone; auto; lra.
    + intro Hp. apply Rplus_lt_compat_r. now apply spline_increasing.
Qed.

(** Upper tails of category probabilities. *)
Lemma above_le K z z' c : (1 <= K)%nat -> (forall k, (S k < K)%nat -> z (S k) - z k <= z' (S k) - z' k) ->
  above K c (category_probability K z) <= above K c (category_probability K z').
Proof.
  intros HK H. unfold above. set (s := fun j => if (c <? j)%nat then 1 else 0).
  assert (E : forall y, sumn K (fun j => if (c <? j)%nat then category_probability K y j else 0) = sumn K (fun k => s k * category_probability K y k)).
  { intro y. apply sumn_ext. intros j _. unfold s. destruct (c <? j)%nat; ring. }
  rewrite !E, !category_average. apply chebyshev_avg; try now apply sum_exp_pos. intros k j Hk Hj. apply ratio_sign with K; auto.
  - intros a b Hab Hb. unfold s. destruct (Nat.ltb_spec c a), (Nat.ltb_spec c b); lra || lia.
  - now apply adjacent_to_all.
Qed.
Lemma above_lt K z z' c : (S c < K)%nat -> (forall k, (S k < K)%nat -> z (S k) - z k < z' (S k) - z' k) ->
  above K c (category_probability K z) < above K c (category_probability K z').
Proof.
  intros HK H. unfold above. set (s := fun j => if (c <? j)%nat then 1 else 0).
  assert (E : forall y, sumn K (fun j => if (c <? j)%nat then category_probability K y j else 0) = sumn K (fun k => s k * category_probability K y k)).
  { intro y. apply sumn_ext. intros j _. unfold s. destruct (c <? j)%nat; ring. }
  assert (Hs : forall a b, (a <= b)%nat -> (b < K)%nat -> s a <= s b).
  { intros a b Hab Hb. unfold s. destruct (Nat.ltb_spec c a), (Nat.ltb_spec c b); lra || lia. }
  rewrite !E, !category_average.
  apply chebyshev_avg_strict with (k0 := S c) (j0 := c); try (apply sum_exp_pos; lia); try lia.
  - intros k j Hk Hj. apply ratio_sign with K; auto. apply adjacent_to_all. intros q Hq. left. auto.
  - unfold s. destruct (Nat.ltb_spec c (S c)); [|lia]. destruct (Nat.ltb_spec c c); [lia|]. rewrite <- !exp_plus. pose proof (H c HK).
    assert (exp (z' c + z (S c)) < exp (z' (S c) + z c)) by (apply exp_increasing; lra). lra.
Qed.
Lemma above_truncate K M c (p : nat -> R) : (K <= M)%nat -> above M c (fun k => if (k <? K)%nat then p k else 0) = above K c p.
Proof.
  intro H. unfold above.
  rewrite (sumn_truncate K M _ H); [|intros k Hk; destruct (c <? k)%nat; [|reflexivity]; destruct (Nat.ltb_spec k K); [lia|reflexivity]].
  apply sumn_ext. intros k Hk. destruct (Nat.ltb_spec k K); [reflexivity|lia].
Qed.
