(** Linear regression and the directions taken from it. *)
From Verif Require Import Base BaseFacts RBase RFacts M_Logit M_Lik M_Mono M_Scale S_Scale M_Pop S_Pop P_Logit P_Pop1 P_Stat1.
Local Open Scope R_scope.

Definition entry (x : list (list R)) (r k : nat) : R := nth k (nth r (design x) []) 0.
Lemma entry_0 x r : (r < length x)%nat -> entry x r 0 = 1.
Proof. intro H. unfold entry, design. rewrite (nth_indep _ [] (1 :: nth r x [])) by (now rewrite map_length). rewrite (nth_error_nth (map (cons 1) x) r _ (x := 1 :: nth r x [])); [reflexivity|]. rewrite nth_error_map, (nth_error_nth_lt x r []) by lia. reflexivity. Qed.
Lemma entry_S x r d : (r < length x)%nat -> entry x r (S d) = nth d (nth r x []) 0.
Proof. intro H. unfold entry, design. rewrite (nth_error_nth (map (cons 1) x) r _ (x := 1 :: nth r x [])); [reflexivity|]. rewrite nth_error_map, (nth_error_nth_lt x r []) by lia. reflexivity. Qed.
Lemma nth_error_design x r : (r < length x)%nat -> nth_error (design x) r = Some (nth r (design x) []).
Proof. intro H. apply nth_error_nth_lt. unfold design. now rewrite map_length. Qed.
Lemma design_length x : length (design x) = length x.
Proof. apply map_length. Qed.

Lemma gram_entry n x i j : (i < n)%nat -> (j < n)%nat ->
  nth j (nth i (gram n (design x)) []) 0 = sumn (length x) (fun r => entry x r i * entry x r j).
Proof.
  intros Hi Hj. unfold gram. rewrite (nth_map_seq _ n i []) by auto.
  rewrite (nth_map_seq _ n j 0) by auto.
  apply rsum_index; [now rewrite map_length, design_length|]. intros r Hr. rewrite nth_error_map, nth_error_design by auto. reflexivity.
Qed.
Lemma gram_matrix n b : is_matrix n n (gram n b).
Proof. split; [unfold gram; now rewrite map_length, seq_length|]. apply Forall_forall. intros row H. apply in_map_iff in H as (i & <- & _). now rewrite map_length, seq_length. Qed.

(** The normal equations. *)
Definition normal_equations (lv : nat) (x : list (list R)) (y : nat -> R) (w : nat -> R) : Prop :=
  forall j, (j <= lv)%nat -> sumn (length x) (fun r => entry x r j * (y r - sumn (S lv) (fun i => entry x r i * w i))) = 0.
Lemma regression_solves inv lv x y W : length y = length x -> inv (gram (S lv) (design x)) = Ok W -> inverse_matrix (S lv) (gram (S lv) (design x)) W ->
  exists w, linear_regression inv lv x (map Some y) = Ok (map (fun i => Some (w i)) (seq 0 (S lv))) /\
    normal_equations lv x (fun r => nth r y 0) w.
Proof.
  intros Hy HW (_ & _ & HI & _).
  set (N := length x) in *. set (n := S lv) in *.
  exists (fun i => sumn N (fun r => sumn n (fun k => nth k (nth i W []) 0 * entry x r k) * nth r y 0)). split.
  - unfold linear_regression. rewrite map_length, design_length, Hy. fold N. rewrite Nat.eqb_refl. fold n. rewrite HW. cbn [bind]. f_equal.
    apply map_ext_in. intros i Hi. apply osum_index.
    + rewrite zip_with_length, map_length, design_length, Hy. apply Nat.min_id.
    + intros r Hr. rewrite nth_error_zip_with, nth_error_design by auto. rewrite nth_error_map, (nth_error_nth_lt y r 0) by lia. cbn [option_map olift2].
      do 3 f_equal. rewrite rsum_map_seq. apply sumn_ext. intros k Hk. reflexivity.
  - intros j Hj. fold n N.
    rewrite (sumn_ext N _ (fun r => entry x r j * nth r y 0 - sumn n (fun i => entry x r j * entry x r i * sumn N (fun s => sumn n (fun k => nth k (nth i W []) 0 * entry x s k) * nth s y 0)))).
    2:{ intros r Hr. rewrite Rmult_minus_distr_l. f_equal. rewrite <- sumn_scal. apply sumn_ext. intros i Hi. ring. }
    rewrite sumn_minus. rewrite sumn_swap.
    rewrite (sumn_ext n _ (fun i => sumn N (fun s => sumn n (fun k => (sumn N (fun r => entry x r j * entry x r i) * nth k (nth i W []) 0) * (entry x s k * nth s y 0))))).
    2:{ intros i Hi. rewrite sumn_scal_r. rewrite <- sumn_scal. apply sumn_ext. intros s Hs. rewrite <- (sumn_scal_r n (nth s y 0)), <- (sumn_scal n). apply sumn_ext. intros k Hk. ring. }
    rewrite sumn_swap.
    rewrite (sumn_ext N (fun s => sumn n _) (fun s => entry x s j * nth s y 0)); [ring|].
    intros s Hs. rewrite sumn_swap.
    rewrite (sumn_ext n _ (fun k => (if (j =? k)%nat then 1 else 0) * (entry x s k * nth s y 0))).
    2:{ intros k Hk. rewrite sumn_scal_r. f_equal. rewrite <- (HI j k) by (unfold n in *; lia). apply sumn_ext. intros i Hi. rewrite (gram_entry n x j i) by (unfold n in *; lia). reflexivity. }
    rewrite (sumn_single n j); [rewrite Nat.eqb_refl; ring|unfold n; lia|]. intros k Hk Hne. destruct (Nat.eqb_spec j k); [congruence|ring].
Qed.

Lemma squared_error_entries lv x y w : squared_error lv x y w = sumn (length x) (fun r => (nth r y 0 - sumn (S lv) (fun i => entry x r i * w i)) ^ 2).
Proof.
  unfold squared_error. apply sumn_ext. intros r Hr. do 2 f_equal. rewrite sumn_S_first, entry_0 by auto. rewrite Rmult_1_l. f_equal.
  apply sumn_ext. intros d Hd. rewrite entry_S by auto. ring.
Qed.
Lemma least_squares lv x y w w' : normal_equations lv x (fun r => nth r y 0) w -> squared_error lv x y w <= squared_error lv x y w'.
Proof.
  intro H. rewrite !squared_error_entries.
  set (N := length x). set (n := S lv).
  set (e := fun r => nth r y 0 - sumn n (fun i => entry x r i * w i)).
  set (g := fun r => sumn n (fun i => entry x r i * (w i - w' i))).
  assert (X : sumn N (fun r => e r * g r) = 0).
  { unfold g. rewrite (sumn_ext N _ (fun r => sumn n (fun i => (entry x r i * e r) * (w i - w' i)))).
    2:{ intros r Hr. rewrite <- sumn_scal. apply sumn_ext. intros; ring. }
    rewrite sumn_swap. apply sumn_zero. intros i Hi. rewrite sumn_scal_r.
    assert (HH : sumn N (fun r => entry x r i * e r) = 0) by (apply (H i); unfold n in *; lia). rewrite HH. ring. }
  assert (E : sumn N (fun r => (nth r y 0 - sumn n (fun i => entry x r i * w' i)) ^ 2) = sumn N (fun r => e r ^ 2) + sumn N (fun r => g r ^ 2) + 2 * sumn N (fun r => e r * g r)).
  { rewrite <- sumn_scal, <- !sumn_plus. apply sumn_ext. intros r Hr. unfold e, g.
    rewrite (sumn_ext n (fun i => entry x r i * (w i - w' i)) (fun i => entry x r i * w i - entry x r i * w' i)) by (intros; ring).
    rewrite sumn_minus. ring. }
  rewrite E, X. pose proof (sumn_nonneg N (fun r => g r ^ 2) ltac:(intros; apply pow2_ge_0)).
  change (sumn N (fun r => e r ^ 2) <= sumn N (fun r => e r ^ 2) + sumn N (fun r => g r ^ 2) + 2 * 0). lra.
Qed.

(** One latent variable: the slope has the sign of the covariance. *)
Lemma covariance_double n (x y : nat -> R) :
  sumn n (fun k => sumn n (fun j => (x k - x j) * (y k - y j))) = 2 * (INR n * sumn n (fun k => x k * y k) - sumn n x * sumn n y).
Proof.
  pose proof (chebyshev_double n (fun _ => 1) y x) as H. rewrite sumn_const in H.
  rewrite (sumn_ext n _ (fun k => sumn n (fun j => (x k - x j) * (y k * 1 - y j * 1)))).
  2:{ intros k Hk. apply sumn_ext. intros j Hj. ring. }
  rewrite H. rewrite (sumn_ext n (fun k => x k * 1) x) by (intros; ring). ring.
Qed.
Lemma slope_equation x y w : Forall (fun t => length t = 1%nat) x -> normal_equations 1 x y w ->
  let X := fun r => nth 0 (nth r x []) 0 in let N := length x in
  (INR N * sumn N (fun r => X r * X r) - sumn N X * sumn N X) * w 1%nat = INR N * sumn N (fun r => X r * y r) - sumn N X * sumn N y.
Proof.
  intros _ H X N. pose proof (H 0%nat ltac:(lia)) as H0. pose proof (H 1%nat ltac:(lia)) as H1. fold N in H0, H1.
  rewrite (sumn_ext N _ (fun r => y r - (w 0%nat + X r * w 1%nat))) in H0.
  2:{ intros r Hr. rewrite (sumn_S_first 1), (sumn_single 1 0) by (try lia; intros; lia). rewrite entry_0, entry_S by auto. unfold X. ring. }
  rewrite (sumn_ext N _ (fun r => X r * y r - (X r * w 0%nat + X r * X r * w 1%nat))) in H1.
  2:{ intros r Hr. rewrite (sumn_S_first 1), (sumn_single 1 0) by (try lia; intros; lia). rewrite entry_0, entry_S by auto. unfold X. ring. }
  rewrite sumn_minus, sumn_plus, sumn_const, sumn_scal_r in H0.
  rewrite sumn_minus, sumn_plus, !sumn_scal_r in H1.
  set (Sx := sumn N X) in *. set (Sy := sumn N y) in *. set (Sxx := sumn N (fun r => X r * X r)) in *. set (Sxy := sumn N (fun r => X r * y r)) in *.
  assert (Ey : Sy = INR N * w 0%nat + Sx * w 1%nat) by lra. assert (Exy : Sxy = Sx * w 0%nat + Sxx * w 1%nat) by lra.
  rewrite Ey, Exy. ring.
Qed.
Lemma spread_pos n (x : nat -> R) k j : (k < n)%nat -> (j < n)%nat -> x k <> x j -> 0 < INR n * sumn n (fun r => x r * x r) - sumn n x * sumn n x.
Proof.
  intros Hk Hj Hne. pose proof (covariance_double n x x) as H.
  assert (0 < sumn n (fun k => sumn n (fun j => (x k - x j) * (x k - x j)))); [|lra].
  assert (P : forall a, 0 <= a * a) by (intro a; nra).
  apply (sumn_pos_one n _ k); auto.
  - intros i Hi. apply sumn_nonneg. intros; apply P.
  - apply (sumn_pos_one n _ j); auto. assert (x k - x j <> 0) by lra. nra.
Qed.
Lemma covariance_pos n (x y : nat -> R) k j : (forall a b, (a < n)%nat -> (b < n)%nat -> 0 <= (x a - x b) * (y a - y b)) ->
  (k < n)%nat -> (j < n)%nat -> 0 < (x k - x j) * (y k - y j) -> 0 < INR n * sumn n (fun r => x r * y r) - sumn n x * sumn n y.
Proof.
  intros Hs Hk Hj Hp. pose proof (covariance_double n x y) as H.
  assert (0 < sumn n (fun k => sumn n (fun j => (x k - x j) * (y k - y j)))); [|lra].
  apply (sumn_pos_one n _ k); auto.
  - intros i Hi. apply sumn_nonneg. intros; auto.
  - apply (sumn_pos_one n _ j); auto.
Qed.
(** The inverse exists when two scores differ. *)
Lemma gram_inverse x k j : Forall (fun t => length t = 1%nat) x -> (k < length x)%nat -> (j < length x)%nat ->
  nth 0 (nth k x []) 0 <> nth 0 (nth j x []) 0 -> exists B, inverse_matrix 2 (gram 2 (design x)) B.
Proof.
  intros HF Hk Hj Hne.
  set (X := fun r => nth 0 (nth r x []) 0). set (N := length x).
  pose proof (spread_pos N X k j Hk Hj Hne) as HD.
  set (Sx := sumn N X) in *. set (Sxx := sumn N (fun r => X r * X r)) in *. set (D := INR N * Sxx - Sx * Sx) in *.
  assert (G : forall a b, (a < 2)%nat -> (b < 2)%nat -> nth b (nth a (gram 2 (design x)) []) 0 =
     if (a =? 0)%nat then if (b =? 0)%nat then INR N else Sx else if (b =? 0)%nat then Sx else Sxx).
  { intros a b Ha Hb. rewrite gram_entry by auto. fold N.
    destruct a as [|[|a]]; [| |lia]; destruct b as [|[|b]]; try lia; cbn [Nat.eqb].
    - rewrite (sumn_ext N _ (fun _ => 1)) by (intros r Hr; rewrite entry_0 by auto; ring). rewrite sumn_const. ring.
    - apply sumn_ext. intros r Hr. rewrite entry_0, entry_S by auto. unfold X. ring.
    - apply sumn_ext. intros r Hr. rewrite entry_0, entry_S by auto. unfold X. ring.
    - apply sumn_ext. intros r Hr. rewrite !entry_S by auto. reflexivity. }
  exists [[Sxx / D; - Sx / D]; [- Sx / D; INR N / D]]. split; [apply gram_matrix|]. split; [split; [reflexivity|repeat constructor]|].
  assert (HD' : INR N * Sxx - Sx * Sx <> 0) by (fold D; lra).
  split; intros a b Ha Hb.
  - rewrite (sumn_S_first 1), (sumn_single 1 0) by (try lia; intros; lia). rewrite !G by lia.
    destruct a as [|[|a]]; [| |lia]; destruct b as [|[|b]]; try lia; cbn [Nat.eqb nth]; unfold D; field; auto.
  - rewrite (sumn_S_first 1), (sumn_single 1 0) by (try lia; intros; lia). rewrite !G by lia.
    destruct a as [|[|a]]; [| |lia]; destruct b as [|[|b]]; try lia; cbn [Nat.eqb nth]; unfold D; field; auto.
Qed.
