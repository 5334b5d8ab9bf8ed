(** Lemmas: correlations. *)
From Verif Require Import Base BaseFacts RBase RFacts M_Logit M_Mono M_Lik M_Est M_Stat S_Stat P_Stat1 P_Stat3 P_Stat5.
Local Open Scope R_scope.

(** ** Cross products *)
Lemma rsum_zip_ext {A B} (f g : A -> B -> R) a b : (forall x y, f x y = g x y) -> rsum (zip_with f a b) = rsum (zip_with g a b).
Proof. intros H. revert b; induction a as [|x a IH]; intros [|y b]; [reflexivity..|]. cbn [zip_with]. unfold rsum in *. cbn [fold_right]. rewrite IH, H. reflexivity. Qed.
Lemma rsum_zip_plus {A B} (f g : A -> B -> R) a b : rsum (zip_with (fun x y => f x y + g x y) a b) = rsum (zip_with f a b) + rsum (zip_with g a b).
Proof. revert b; induction a as [|x a IH]; intros [|y b]; try (unfold rsum; cbn; ring). cbn [zip_with]. unfold rsum in *. cbn [fold_right]. rewrite IH. ring. Qed.
Lemma rsum_zip_scal {A B} (f : A -> B -> R) c a b : rsum (zip_with (fun x y => c * f x y) a b) = c * rsum (zip_with f a b).
Proof. revert b; induction a as [|x a IH]; intros [|y b]; try (unfold rsum; cbn; ring). cbn [zip_with]. unfold rsum in *. cbn [fold_right]. rewrite IH. ring. Qed.
Lemma rsum_zip_comm {A B} (f : A -> B -> R) a b : rsum (zip_with f a b) = rsum (zip_with (fun y x => f x y) b a).
Proof. revert b; induction a as [|x a IH]; intros [|y b]; [reflexivity..|]. cbn [zip_with]. unfold rsum in *. cbn [fold_right]. rewrite IH. reflexivity. Qed.
Lemma rsum_zip_nonneg {A B} (f : A -> B -> R) a b : (forall x y, 0 <= f x y) -> 0 <= rsum (zip_with f a b).
Proof. intros H. revert b; induction a as [|x a IH]; intros [|y b]; try (unfold rsum; cbn; lra). cbn [zip_with]. specialize (IH b). specialize (H x y). unfold rsum in *. cbn [fold_right]. lra. Qed.
Lemma rsum_zip_left a b (f : R -> R) : length a = length b -> rsum (zip_with (fun x _ : R => f x) a b) = rsum (map f a).
Proof. revert b; induction a as [|x a IH]; intros [|y b] H; cbn [length] in H; try lia; [reflexivity|]. cbn [zip_with map]. unfold rsum in *. cbn [fold_right]. rewrite IH by lia. reflexivity. Qed.
Lemma rsum_zip_diag (f : R -> R -> R) a : rsum (zip_with f a a) = rsum (map (fun x => f x x) a).
Proof. induction a as [|x a IH]; [reflexivity|]. cbn [zip_with map]. unfold rsum in *. cbn [fold_right]. rewrite IH. reflexivity. Qed.
Lemma rsum_zip_right a b (f : R -> R) : length a = length b -> rsum (zip_with (fun _ y : R => f y) a b) = rsum (map f b).
Proof. intros H. rewrite rsum_zip_comm. apply rsum_zip_left. congruence. Qed.

Lemma cross_comm a b : cross a b = cross b a.
Proof. unfold cross. rewrite rsum_zip_comm. apply rsum_zip_ext. intros; ring. Qed.
Lemma cross_self_nonneg a : 0 <= cross a a.
Proof. unfold cross. rewrite rsum_zip_diag. replace 0 with (rsum (map (fun _ : R => 0) a)) by (rewrite rsum_map_const; ring). apply rsum_le_map. intros x _. apply (Rle_0_sqr (x - mean a)). Qed.
Lemma cross_self a : cross a a = rsum (map (fun x => (x - mean a) ^ 2) a).
Proof. unfold cross. rewrite rsum_zip_diag. f_equal. apply map_ext. intros; ring. Qed.
Lemma cauchy a b : length a = length b -> cross a b ^ 2 <= cross a a * cross b b.
Proof.
  intros H. set (A := cross a a). set (B := cross b b). set (C := cross a b).
  assert (Q : forall t, 0 <= A + 2 * t * C + t ^ 2 * B).
  { intros t. assert (E : A + 2 * t * C + t ^ 2 * B = rsum (zip_with (fun x y => ((x - mean a) + t * (y - mean b)) ^ 2) a b)).
    { rewrite (rsum_zip_ext _ (fun x y => (x - mean a) ^ 2 + (2 * t * ((x - mean a) * (y - mean b)) + t ^ 2 * (y - mean b) ^ 2))) by (intros; ring).
      rewrite !rsum_zip_plus, !rsum_zip_scal. rewrite (rsum_zip_left a b (fun x => (x - mean a) ^ 2)) by exact H. rewrite (rsum_zip_right a b (fun x => (x - mean b) ^ 2)) by exact H.
      rewrite <- !cross_self. unfold A, B, C, cross at 2. ring. }
    rewrite E. apply rsum_zip_nonneg. intros. apply pow2_ge_0. }
  pose proof (cross_self_nonneg b) as PB. fold B in PB. pose proof (cross_self_nonneg a) as PA. fold A in PA. clearbody A B C.
  destruct (Req_EM_T B 0) as [Z|Z].
  - subst B. destruct (Req_EM_T C 0) as [->|NC]; [nra|]. exfalso. specialize (Q (- (A + 1) / (2 * C))).
    replace (A + 2 * (- (A + 1) / (2 * C)) * C + (- (A + 1) / (2 * C)) ^ 2 * 0) with (-1) in Q by (field; lra). lra.
  - specialize (Q (- C / B)). replace (A + 2 * (- C / B) * C + (- C / B) ^ 2 * B) with ((A * B - C ^ 2) / B) in Q by (field; lra).
    assert (0 < B) by lra. assert (0 <= A * B - C ^ 2); [|lra]. replace (A * B - C ^ 2) with ((A * B - C ^ 2) / B * B) by (field; lra). apply Rmult_le_pos; lra.
Qed.
Lemma pearson_range a b : length a = length b -> 0 < cross a a -> 0 < cross b b -> -1 <= pearson a b <= 1.
Proof.
  intros H A B. unfold pearson. pose proof (cauchy a b H) as C. assert (P : 0 < cross a a * cross b b) by (apply Rmult_lt_0_compat; assumption).
  pose proof (sqrt_lt_R0 _ P) as S. pose proof (sqrt_sqrt _ (Rlt_le _ _ P)) as SS. set (s := sqrt (cross a a * cross b b)) in *. set (c := cross a b) in *.
  assert (E : c = c / s * s) by (field; lra). set (r := c / s) in *. assert (r ^ 2 * (s * s) <= 1 * (s * s)) by (rewrite E in C; nra).
  assert (r ^ 2 <= 1) by (apply Rmult_le_reg_r with (s * s); [nra|assumption]). split; nra.
Qed.
Lemma pearson_self a : 0 < cross a a -> pearson a a = 1.
Proof. intros A. unfold pearson. rewrite sqrt_square by lra. field. lra. Qed.
Lemma pearson_comm a b : pearson a b = pearson b a.
Proof. unfold pearson. rewrite cross_comm, (Rmult_comm (cross a a)). reflexivity. Qed.
Lemma cross_zero_constant a : cross a a = 0 <-> (forall x, In x a -> x = mean a).
Proof.
  rewrite cross_self. split.
  - intros H x I. assert (G : forall l, rsum (map (fun x => (x - mean a) ^ 2) l) = 0 -> forall x, In x l -> x = mean a).
    { induction l as [|y l IH]; intros E z Hz; [destruct Hz|]. cbn [map] in E. match type of E with rsum (?u :: ?v) = _ => change (u + rsum v = 0) in E end.
      assert (0 <= rsum (map (fun x => (x - mean a) ^ 2) l)) by (replace 0 with (rsum (map (fun _ : R => 0) l)) by (rewrite rsum_map_const; ring); apply rsum_le_map; intros; apply pow2_ge_0).
      pose proof (pow2_ge_0 (y - mean a)). destruct Hz as [->|Hz]; [|apply IH; [lra|exact Hz]]. assert (z - mean a = 0) by nra. lra. }
    apply (G a H x I).
  - intros H. rewrite (map_ext_in _ (fun _ => 0)); [rewrite rsum_map_const; ring|]. intros x I. rewrite (H x I). ring.
Qed.

(** ** Standard deviations *)
Lemma sd_cross a : sd a = sqrt (cross a a / (INR (length a) - 1)).
Proof. unfold sd. rewrite cross_self. reflexivity. Qed.
Lemma sd_product a b : length a = length b -> (2 <= length a)%nat -> sd a * sd b = sqrt (cross a a * cross b b) / (INR (length a) - 1).
Proof.
  intros H N. assert (2 <= INR (length a)) by (change 2 with (INR 2); apply le_INR; exact N). rewrite !sd_cross, <- H.
  pose proof (cross_self_nonneg a). pose proof (cross_self_nonneg b).
  assert (0 < / (INR (length a) - 1)) by (apply Rinv_0_lt_compat; lra).
  rewrite <- sqrt_mult by (apply Rmult_le_pos; lra).
  replace (cross a a / (INR (length a) - 1) * (cross b b / (INR (length a) - 1))) with ((cross a a * cross b b) * (/ (INR (length a) - 1)) ^ 2) by (field; lra).
  rewrite sqrt_mult by (solve [apply pow2_ge_0|apply Rmult_le_pos; assumption]). rewrite sqrt_pow2 by lra. reflexivity.
Qed.
Lemma fdiv_fin x y : y <> 0 -> fdiv (Some (Fin x)) (Some (Fin y)) = Some (Fin (x / y)).
Proof. intros H. unfold fdiv. destruct (Req_EM_T y 0); [contradiction|reflexivity]. Qed.

Lemma values_column x i : map present (column None i x) = values x i.
Proof. unfold column, values. rewrite map_map. reflexivity. Qed.
Lemma values_length x i : length (values x i) = length x.
Proof. unfold values. apply map_length. Qed.
Lemma corr_complete_value x i j : (2 <= length x)%nat -> 0 < cross (values x i) (values x i) -> 0 < cross (values x j) (values x j) ->
  corr_complete x i j = Some (Fin (pearson (values x i) (values x j))).
Proof.
  intros N A B. unfold corr_complete. rewrite (proj2 (Nat.leb_gt _ _)) by lia. rewrite !values_column.
  assert (N' : 2 <= INR (length x)) by (change 2 with (INR 2); apply le_INR; exact N).
  assert (P : 0 < sqrt (cross (values x i) (values x i) * cross (values x j) (values x j))) by (apply sqrt_lt_R0, Rmult_lt_0_compat; assumption).
  rewrite sd_product by (rewrite !values_length; lia). rewrite values_length. rewrite fdiv_fin.
  - do 2 f_equal. unfold pearson. fold (cross (values x i) (values x j)). change (rmean) with mean. fold (cross (values x i) (values x j)). field. lra.
  - apply Rgt_not_eq. apply Rdiv_lt_0_compat; lra.
Qed.
Lemma corr_complete_sym x i j : corr_complete x i j = corr_complete x j i.
Proof.
  unfold corr_complete. destruct (length x <=? 1)%nat; [reflexivity|]. rewrite (Rmult_comm (sd (map present (column None i x)))).
  match goal with |- fdiv (Some (Fin (?u / _))) _ = fdiv (Some (Fin (?v / _))) _ => replace u with v; [reflexivity|] end.
  rewrite rsum_zip_comm. apply rsum_zip_ext. intros; ring.
Qed.
Lemma rsum_zip_zero {A B} (f : A -> B -> R) a b : (forall x y, In x a -> f x y = 0) -> rsum (zip_with f a b) = 0.
Proof.
  revert b; induction a as [|x a IH]; intros [|y b] H; try reflexivity. cbn [zip_with]. match goal with |- rsum (?u :: ?v) = _ => change (u + rsum v = 0) end.
  rewrite IH by (intros; apply H; right; assumption). rewrite H by (left; reflexivity). ring.
Qed.
Lemma corr_complete_constant x i j : (2 <= length x)%nat -> cross (values x i) (values x i) = 0 -> corr_complete x i j = None.
Proof.
  intros N Z. unfold corr_complete. rewrite (proj2 (Nat.leb_gt _ _)) by lia. rewrite !values_column.
  assert (E : sd (values x i) = 0) by (rewrite sd_cross, Z; unfold Rdiv; rewrite Rmult_0_l; apply sqrt_0). rewrite E, Rmult_0_l.
  assert (C : rsum (zip_with (fun u v => (u - rmean (values x i)) * (v - rmean (values x j))) (values x i) (values x j)) = 0).
  { apply rsum_zip_zero. intros u v I. pose proof (proj1 (cross_zero_constant _) Z u I) as Eu. change (mean (values x i)) with (rmean (values x i)) in Eu. rewrite Eu at 1. ring. }
  rewrite C. unfold fdiv, Rdiv. rewrite Rmult_0_l. destruct (Req_EM_T 0 0); [reflexivity|lra].
Qed.

Lemma both_present_pairs x i j : both_present (column None i x) (column None j x) = pairs_of x i j.
Proof. unfold both_present, pairs_of, column. induction x as [|row x IH]; [reflexivity|]. cbn [map combine flat_map]. rewrite IH. reflexivity. Qed.
Lemma observed_answers x i : observed (column None i x) = answers_of x i.
Proof. unfold observed, answers_of, column. induction x as [|row x IH]; [reflexivity|]. cbn [map flat_map]. rewrite IH. reflexivity. Qed.
Lemma cov_pairs x i j : rsum (zip_with Rmult (centred (column None i x)) (centred (column None j x)))
  = rsum (map (fun '(u, v) => (u - mean (answers_of x i)) * (v - mean (answers_of x j))) (pairs_of x i j)).
Proof.
  unfold centred. rewrite !observed_answers. change rmean with mean. set (mi := mean (answers_of x i)). set (mj := mean (answers_of x j)). clearbody mi mj.
  unfold column, pairs_of. induction x as [|row x IH]; [reflexivity|]. cbn [map zip_with flat_map]. rewrite map_app, rsum_app, <- IH.
  match goal with |- rsum (?u :: ?v) = _ => change (u + rsum v = rsum (map (fun '(y, z) => (y - mi) * (z - mj)) match nth i row None, nth j row None with Some a, Some b => [(a, b)] | _, _ => [] end) + rsum v) end.
  f_equal. destruct (nth i row None), (nth j row None); unfold rsum; cbn; ring.
Qed.
Lemma rsum_pairs_shift (v : list (R * R)) p q : v <> [] ->
  rsum (map (fun '(s, t) => (s - p) * (t - q)) v)
  = cross (map fst v) (map snd v) + INR (length v) * (mean (map fst v) - p) * (mean (map snd v) - q).
Proof.
  intros Ne. assert (N : 0 < INR (length v)) by (apply lt_0_INR; destruct v; [congruence|cbn; lia]).
  assert (E : forall (f : R -> R -> R) (l : list (R * R)), rsum (zip_with f (map fst l) (map snd l)) = rsum (map (fun '(s, t) => f s t) l)).
  { intros f l. rewrite zip_with_same. f_equal. apply map_ext. intros [s t]. reflexivity. }
  unfold cross. rewrite (E (fun u w => (u - mean (map fst v)) * (w - mean (map snd v)))).
  set (a := mean (map fst v)). set (b := mean (map snd v)).
  assert (Ha : rsum (map fst v) = INR (length v) * a) by (unfold a, mean; rewrite map_length; field; lra).
  assert (Hb : rsum (map snd v) = INR (length v) * b) by (unfold b, mean; rewrite map_length; field; lra).
  assert (L : forall p q, rsum (map (fun '(s, t) => (s - p) * (t - q)) v) = rsum (map (fun '(s, t) => s * t) v) + (- q * rsum (map fst v) + (- p * rsum (map snd v) + INR (length v) * (p * q)))).
  { intros p' q'. rewrite <- !rsum_map_scal, <- rsum_map_const, <- !rsum_map_plus. f_equal. apply map_ext. intros [s t]. cbn [fst snd]. ring. }
  rewrite (L p q), (L a b), Ha, Hb. ring.
Qed.
Lemma map_fst_length (v : list (R * R)) : length (map fst v) = length v.
Proof. apply map_length. Qed.
(** The reported entry: Pearson's coefficient of the jointly observed pairs plus a term from the means of all observed values. *)
Definition bias (x : list (list (option R))) (i j : nat) : R :=
  let v := pairs_of x i j in
  INR (length v) * (mean (map fst v) - mean (answers_of x i)) * (mean (map snd v) - mean (answers_of x j))
  / sqrt (cross (map fst v) (map fst v) * cross (map snd v) (map snd v)).
Lemma corr_missing_value x i j : (i < j)%nat -> let v := pairs_of x i j in (2 <= length v)%nat ->
  0 < cross (map fst v) (map fst v) -> 0 < cross (map snd v) (map snd v) ->
  corr_missing x i j = Some (Fin (pearson (map fst v) (map snd v) + bias x i j)).
Proof.
  intros Hij v N A B. unfold corr_missing. destruct (Nat.eqb_spec i j); [lia|]. replace (Nat.min i j) with i by lia. replace (Nat.max i j) with j by lia.
  rewrite both_present_pairs. fold v. rewrite (proj2 (Nat.ltb_lt _ _)) by lia.
  assert (N' : 2 <= INR (length v)) by (change 2 with (INR 2); apply le_INR; exact N).
  assert (P : 0 < sqrt (cross (map fst v) (map fst v) * cross (map snd v) (map snd v))) by (apply sqrt_lt_R0, Rmult_lt_0_compat; assumption).
  rewrite sd_product by (rewrite !map_length; lia). rewrite map_length.
  rewrite fdiv_fin by (apply Rgt_not_eq, Rdiv_lt_0_compat; lra). do 2 f_equal.
  unfold cov_missing. rewrite both_present_pairs. fold v. rewrite (proj2 (Nat.ltb_lt _ _)) by lia. rewrite cov_pairs. fold v.
  rewrite rsum_pairs_shift by (intros E; rewrite E in N; cbn in N; lia).
  unfold bias, pearson. fold v. field. lra.
Qed.
Lemma corr_missing_sym x i j : corr_missing x i j = corr_missing x j i.
Proof. unfold corr_missing. rewrite (Nat.min_comm j i), (Nat.max_comm j i), (Nat.eqb_sym j i). reflexivity. Qed.
Lemma corr_missing_few x i j : (i < j)%nat -> (length (pairs_of x i j) <= 1)%nat -> corr_missing x i j = Some (Fin 0).
Proof.
  intros Hij N. unfold corr_missing. destruct (Nat.eqb_spec i j); [lia|]. replace (Nat.min i j) with i by lia. replace (Nat.max i j) with j by lia.
  rewrite both_present_pairs, (proj2 (Nat.ltb_ge _ _)) by exact N. reflexivity.
Qed.
Lemma correlation_entry cols x i j : (i < cols)%nat -> (j < cols)%nat ->
  nth_error (nth i (correlation_matrix cols x) []) j = Some (if cells_complete x then corr_complete x i j else corr_missing x i j).
Proof.
  intros Hi Hj. unfold correlation_matrix.
  rewrite (nth_error_nth _ i [] (x := map (fun j => if cells_complete x then corr_complete x i j else corr_missing x i j) (seq 0 cols))).
  - rewrite nth_error_map, nth_error_seq by exact Hj. reflexivity.
  - rewrite nth_error_map, nth_error_seq by exact Hi. reflexivity.
Qed.
