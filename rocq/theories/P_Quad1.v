(** Lemmas: integrals over product grids, polynomials, and the Cholesky factor. *)
From Verif Require Import Base BaseFacts RBase RFacts M_CV M_Est M_Mix M_Quad P_Mix1 P_Est3 S_Quad.
Import List.
Local Open Scope R_scope.

(** ** Integrals *)
Lemma integral_plus rule f g : integral rule (fun y => f y + g y) = integral rule f + integral rule g.
Proof.
  destruct rule as [ps ws]. unfold integral. cbn [fst snd]. revert ws; induction ps as [|p ps IH]; intros [|w ws]; cbn [zip_with rsum fold_right]; try (cbn; ring).
  change (fold_right Rplus 0) with rsum. rewrite IH. ring.
Qed.
Lemma integral_scale rule c f : integral rule (fun y => c * f y) = c * integral rule f.
Proof.
  destruct rule as [ps ws]. unfold integral. cbn [fst snd]. revert ws; induction ps as [|p ps IH]; intros [|w ws]; cbn [zip_with rsum fold_right]; try (cbn; ring).
  change (fold_right Rplus 0) with rsum. rewrite IH. ring.
Qed.
Lemma integral_ext rule f g : (forall y, In y (fst rule) -> f y = g y) -> integral rule f = integral rule g.
Proof.
  destruct rule as [ps ws]. unfold integral. cbn [fst snd]. intro H. f_equal. revert ws H; induction ps as [|p ps IH]; intros [|w ws] H; try reflexivity.
  cbn [zip_with]. rewrite (H p) by now left. f_equal. apply IH. intros y Hy. apply H. now right.
Qed.
Lemma integral_map (h : list R -> list R) c ps ws f : integral (map h ps, map (fun w => w * c) ws) f = c * integral (ps, ws) (fun x => f (h x)).
Proof.
  unfold integral. cbn [fst snd]. revert ws; induction ps as [|p ps IH]; intros [|w ws]; cbn [map zip_with rsum fold_right]; try (cbn; ring).
  change (fold_right Rplus 0) with rsum. rewrite IH. ring.
Qed.
Lemma rsum_cons a l : rsum (a :: l) = a + rsum l.
Proof. reflexivity. Qed.

(** ** Product grids *)
Definition grid (nodes ws : list R) (d : nat) : list (list R) * list R := (product (repeat nodes d), map (fold_right Rmult 1) (product (repeat ws d))).
Lemma product_len {V} (l : list V) d : forall x, In x (product (repeat l d)) -> length x = d.
Proof.
  induction d as [|d IH]; intros x H; cbn [repeat product] in H; [destruct H as [<-|[]]; reflexivity|].
  apply in_flat_map in H as (a & _ & H). apply in_map_iff in H as (y & <- & H). cbn [length]. f_equal. now apply IH.
Qed.
Lemma product_count {V W} (l : list V) (l' : list W) d : length l = length l' -> length (product (repeat l d)) = length (product (repeat l' d)).
Proof.
  intro H. induction d as [|d IH]; [reflexivity|]. cbn [repeat product]. revert l' H IH. generalize (product (repeat l d)) as p. intros p l' H IH. revert IH. generalize (product (repeat l' d)) as q. intros q IH.
  revert l' H. induction l as [|a l IHl]; intros [|b l'] H; try discriminate; [reflexivity|]. cbn [flat_map]. rewrite !app_length, !map_length, IH. f_equal. apply IHl. now injection H.
Qed.
Lemma grid_step nodes ws d f : length ws = length nodes ->
  integral (grid nodes ws (S d)) f = rsum (zip_with (fun x w => w * integral (grid nodes ws d) (fun xs => f (x :: xs))) nodes ws).
Proof.
  intro H. unfold grid. cbn [repeat product]. pose proof (product_count nodes ws d (eq_sym H)) as HC. revert HC. generalize (product (repeat nodes d)) as P. generalize (product (repeat ws d)) as Q. intros Q P HC.
  revert ws H. induction nodes as [|x nodes IH]; intros [|w ws] H; try discriminate; [reflexivity|]. cbn [flat_map zip_with]. rewrite rsum_cons, <- IH by now injection H. unfold integral. cbn [fst snd]. rewrite map_app.
  rewrite zip_with_app by (rewrite !map_length; exact HC). rewrite rsum_app. f_equal. rewrite map_map. cbn [fold_right].
  clear IH. revert Q HC. induction P as [|p P IHP]; intros [|q Q] HC; try discriminate; [cbn; ring|]. cbn [map zip_with]. rewrite !rsum_cons, IHP by now injection HC. ring.
Qed.
Definition one (nodes ws : list R) (f : R -> R) : R := rsum (zip_with (fun x w => w * f x) nodes ws).
Lemma one_scale nodes ws c f : one nodes ws (fun x => f x * c) = one nodes ws f * c.
Proof. unfold one. revert ws; induction nodes as [|x nodes IH]; intros [|w ws]; cbn [zip_with]; try (cbn; ring). rewrite !rsum_cons, IH. ring. Qed.
Lemma grid_power nodes ws (c : R) : length ws = length nodes -> forall e,
  integral (grid nodes ws (length e)) (fun x => power e (map (fun v => c * v) x)) = fold_right Rmult 1 (map (fun k => one nodes ws (fun x => (c * x) ^ k)) e).
Proof.
  intros H e. induction e as [|k e IH]; [unfold integral; cbn; ring|]. cbn [length map fold_right]. rewrite grid_step by exact H. rewrite <- IH. unfold power. cbn [map zip_with fold_right].
  change (fun (x : R) (w : R) => w * integral (grid nodes ws (length e)) (fun xs => (c * x) ^ k * fold_right Rmult 1 (zip_with (fun k x => x ^ k) e (map (fun v => c * v) xs))))
    with (fun (x : R) (w : R) => w * (fun x => integral (grid nodes ws (length e)) (fun xs => (c * x) ^ k * fold_right Rmult 1 (zip_with (fun k x => x ^ k) e (map (fun v => c * v) xs)))) x).
  fold (one nodes ws (fun x => integral (grid nodes ws (length e)) (fun xs => (c * x) ^ k * fold_right Rmult 1 (zip_with (fun k x => x ^ k) e (map (fun v => c * v) xs))))).
  rewrite <- one_scale. unfold one. f_equal. revert H; generalize (length e); intros n _. clear IH. generalize (grid nodes ws n) as G. intro G.
  revert ws; induction nodes as [|x nodes IHn]; intros [|w ws]; try reflexivity. cbn [zip_with]. rewrite IHn. now rewrite integral_scale.
Qed.

(** ** Polynomials as sums of powers *)
Definition sum_of_powers (ms : list (R * list nat)) (z : list R) : R := rsum (map (fun m => fst m * power (snd m) z) ms).
Definition bounded (d n : nat) (ms : list (R * list nat)) : Prop := Forall (fun m => length (snd m) = d /\ (list_sum (snd m) <= n)%nat) ms.
Lemma power_zero d z : power (repeat 0%nat d) z = 1.
Proof. unfold power. revert z; induction d as [|d IH]; intros [|x z]; try reflexivity. cbn [repeat zip_with fold_right pow]. rewrite IH. ring. Qed.
Lemma list_sum_zero d : list_sum (repeat 0%nat d) = 0%nat.
Proof. induction d; [reflexivity|]. cbn. assumption. Qed.
Lemma power_unit d k z : (k < d)%nat -> length z = d -> power (map (fun i => if (i =? k)%nat then 1%nat else 0%nat) (seq 0 d)) z = nth k z 0.
Proof.
  intros Hk Hz. assert (G : forall d s z, length z = d -> (s <= k < s + d)%nat -> power (map (fun i => if (i =? k)%nat then 1%nat else 0%nat) (seq s d)) z = nth (k - s) z 0); [|rewrite (G d 0%nat z Hz) by lia; f_equal; lia].
  clear. assert (Z : forall d s z, (k < s)%nat -> power (map (fun i => if (i =? k)%nat then 1%nat else 0%nat) (seq s d)) z = 1).
  { induction d as [|d IH]; intros s [|x z] H; try reflexivity. unfold power in *. cbn [seq map zip_with fold_right]. destruct (Nat.eqb_spec s k); [lia|]. rewrite IH by lia. cbn. ring. }
  induction d as [|d IH]; intros s [|x z] Hz Hk; try (cbn in Hz; lia). unfold power in *. cbn [seq map zip_with fold_right]. destruct (Nat.eqb_spec s k) as [->|N].
  - rewrite Z by lia. rewrite Nat.sub_diag. cbn. ring.
  - rewrite IH by (try lia; now injection Hz). replace (k - s)%nat with (S (k - S s)) by lia. cbn. ring.
Qed.
Lemma list_sum_unit d k : (list_sum (map (fun i => if (i =? k)%nat then 1%nat else 0%nat) (seq 0 d)) <= 1)%nat.
Proof.
  assert (G : forall d s, (list_sum (map (fun i => if (i =? k)%nat then 1%nat else 0%nat) (seq s d)) <= 1)%nat /\ ((k < s)%nat -> list_sum (map (fun i => if (i =? k)%nat then 1%nat else 0%nat) (seq s d)) = 0%nat)).
  { induction d0 as [|d0 IH]; intro s; [cbn; lia|]. cbn [seq map list_sum fold_right]. change (fold_right Init.Nat.add 0%nat) with list_sum. destruct (IH (S s)) as [I1 I2]. destruct (Nat.eqb_spec s k); [rewrite I2 by lia; lia|]. split; [lia|]. intro. rewrite I2 by lia. lia. }
  apply G.
Qed.
Lemma power_add d : forall a b z, length a = d -> length b = d -> length z = d -> power a z * power b z = power (zip_with Nat.add a b) z.
Proof.
  unfold power. induction d as [|d IH]; intros [|x a] [|y b] [|z zs] H1 H2 H3; try discriminate; [cbn; ring|]. cbn [zip_with fold_right]. rewrite <- IH by (cbn [length] in *; lia). rewrite pow_add. ring.
Qed.
Lemma list_sum_add d : forall a b, length a = d -> length b = d -> list_sum (zip_with Nat.add a b) = (list_sum a + list_sum b)%nat.
Proof.
  induction d as [|d IH]; intros [|x a] [|y b] H1 H2; try discriminate; [reflexivity|]. cbn [zip_with list_sum fold_right]. change (fold_right Init.Nat.add 0%nat) with list_sum. rewrite IH by (cbn [length] in *; lia). lia.
Qed.
Lemma polynomial_powers d n f : polynomial d n f -> exists ms, bounded d n ms /\ forall z, length z = d -> f z = sum_of_powers ms z.
Proof.
  induction 1 as [n c|n k Hk|n f g _ (a & Ba & Ea) _ (b & Bb & Eb)|n m f g _ (a & Ba & Ea) _ (b & Bb & Eb)].
  - exists [(c, repeat 0%nat d)]. split; [constructor; [|constructor]; cbn [snd]; split; [apply repeat_length|rewrite list_sum_zero; lia]|]. intros z _. unfold sum_of_powers. cbn [map fst snd rsum fold_right]. rewrite power_zero. ring.
  - exists [(1, map (fun i => if (i =? k)%nat then 1%nat else 0%nat) (seq 0 d))]. split; [constructor; [|constructor]; cbn [snd]; split; [now rewrite map_length, seq_length|pose proof (list_sum_unit d k); lia]|]. intros z Hz. unfold sum_of_powers. cbn [map fst snd rsum fold_right]. rewrite power_unit by assumption. ring.
  - exists (a ++ b). split; [apply Forall_app; split; assumption|]. intros z Hz. unfold sum_of_powers in *. rewrite map_app, rsum_app, Ea, Eb by assumption. reflexivity.
  - exists (flat_map (fun p => map (fun q => (fst p * fst q, zip_with Nat.add (snd p) (snd q))) b) a). split.
    + apply Forall_forall. intros p Hp. apply in_flat_map in Hp as (x & Hx & Hp). apply in_map_iff in Hp as (y & <- & Hy). unfold bounded in *. rewrite Forall_forall in Ba, Bb. destruct (Ba x Hx) as [L1 S1]. destruct (Bb y Hy) as [L2 S2]. cbn [snd].
      split; [rewrite zip_with_length; lia|]. rewrite (list_sum_add d) by assumption. lia.
    + intros z Hz. rewrite Ea, Eb by assumption. clear Ea Eb. unfold sum_of_powers. unfold bounded in Ba. induction Ba as [|p a [Lp _] Ba IH]; [cbn; ring|]. cbn [map flat_map]. rewrite map_app, rsum_app, rsum_cons, <- IH, map_map. cbn [fst snd].
      assert (Q : rsum (map (fun q => fst p * fst q * power (zip_with Nat.add (snd p) (snd q)) z) b) = fst p * power (snd p) z * rsum (map (fun m => fst m * power (snd m) z) b)).
      { clear IH Ba. unfold bounded in Bb. induction Bb as [|q b [Lq _] Bb IH]; [cbn; ring|]. cbn [map]. rewrite !rsum_cons, IH, <- (power_add d) by assumption. ring. }
      rewrite Q. ring.
Qed.
Lemma polynomial_weaken d n m f : polynomial d n f -> (n <= m)%nat -> polynomial d m f.
Proof.
  intros H; revert m; induction H as [n c|n k Hk|n f g _ I1 _ I2|n n' f g _ I1 _ I2]; intros m Hm.
  - constructor.
  - destruct m; [lia|]. now constructor.
  - constructor; auto.
  - replace m with (n + (m - n))%nat by lia. constructor; [apply I1; lia|apply I2; lia].
Qed.

(** ** Linear functionals *)
Section functional.
Variables (d D : nat) (E : (list R -> R) -> R).
Hypothesis HE : standard_normal d D E.
Lemma functional_powers ms : E (sum_of_powers ms) = rsum (map (fun m => fst m * E (power (snd m))) ms).
Proof.
  induction ms as [|m ms IH].
  - assert (Q : E (sum_of_powers []) = 0 * E (fun _ => 1)) by (rewrite <- (sn_scale d D E HE); apply (sn_ext d D E HE); intros z _; unfold sum_of_powers; cbn; ring). rewrite Q. cbn. ring.
  - cbn [map]. rewrite rsum_cons, <- IH, <- (sn_scale d D E HE), <- (sn_plus d D E HE). apply (sn_ext d D E HE). intros z _. reflexivity.
Qed.
End functional.
Lemma integral_powers rule (h : list R -> list R) ms : integral rule (fun x => sum_of_powers ms (h x)) = rsum (map (fun m => fst m * integral rule (fun x => power (snd m) (h x))) ms).
Proof.
  induction ms as [|m ms IH].
  - unfold sum_of_powers. cbn [map rsum fold_right]. change (fold_right Rplus 0 []) with 0. rewrite (integral_ext rule _ (fun y => 0 * (fun _ => 1) y)) by (intros; ring). rewrite (integral_scale rule 0 (fun _ => 1)). cbn. ring.
  - cbn [map]. rewrite rsum_cons, <- IH, <- (integral_scale rule (fst m) (fun x => power (snd m) (h x))). rewrite <- integral_plus. apply integral_ext. intros; reflexivity.
Qed.
Lemma sqrt_PI_pos : 0 < sqrt PI.
Proof. apply sqrt_lt_R0, PI_RGT_0. Qed.
Lemma const_pow d : Rpower PI (- (1 / 2) * INR d) * sqrt PI ^ d = 1.
Proof.
  rewrite <- (Rpower_pow d (sqrt PI)) by exact sqrt_PI_pos. rewrite <- (Rpower_sqrt PI PI_RGT_0), Rpower_mult, <- Rpower_plus. replace (- (1 / 2) * INR d + / 2 * INR d) with 0 by lra. apply Rpower_O, PI_RGT_0.
Qed.
Lemma exact_powers D nodes ws e : exact_to D nodes ws -> (list_sum e <= D)%nat ->
  integral (grid nodes ws (length e)) (fun x => power e (map (fun v => sqrt 2 * v) x)) = sqrt PI ^ length e * fold_right Rmult 1 (map normal_moment e).
Proof.
  intros [HL HX] HS. rewrite grid_power by exact HL. revert HS. induction e as [|k e IH]; intro HS; [cbn; ring|]. cbn [list_sum fold_right] in HS. change (fold_right Init.Nat.add 0%nat) with list_sum in HS.
  cbn [map fold_right length pow]. rewrite IH by lia. unfold one. rewrite HX by lia. ring.
Qed.
(** A rule agrees with every expectation on polynomials. *)
Lemma grid_exact d D nodes ws E f : exact_to D nodes ws -> standard_normal d D E -> polynomial d D f ->
  Rpower PI (- (1 / 2) * INR d) * integral (grid nodes ws d) (fun x => f (map (fun v => sqrt 2 * v) x)) = E f.
Proof.
  intros HX HE HP. destruct (polynomial_powers d D f HP) as (ms & HB & HF). rewrite (sn_ext d D E HE f (sum_of_powers ms) HF), (functional_powers d D E HE ms).
  rewrite (integral_ext _ _ (fun x => sum_of_powers ms (map (fun v => sqrt 2 * v) x))) by (intros y Hy; apply HF; rewrite map_length; now apply (product_len nodes)).
  rewrite integral_powers. clear HF. unfold bounded in HB. induction HB as [|m ms [Lm Sm] HB IH]; [cbn; ring|]. cbn [map]. rewrite !rsum_cons, Rmult_plus_distr_l, IH. f_equal.
  rewrite <- Lm at 2. rewrite (exact_powers D) by assumption. rewrite (sn_power d D E HE (snd m) Lm Sm). rewrite Lm. pose proof (const_pow d) as C.
  replace (Rpower PI (- (1 / 2) * INR d) * (fst m * (sqrt PI ^ d * fold_right Rmult 1 (map normal_moment (snd m))))) with (Rpower PI (- (1 / 2) * INR d) * sqrt PI ^ d * (fst m * fold_right Rmult 1 (map normal_moment (snd m)))) by ring.
  rewrite C. ring.
Qed.
(** Composition with an affine map. *)
Lemma sumn_polynomial d n (a : nat -> R) : (n <= d)%nat -> polynomial d 1 (fun z => sumn n (fun k => a k * nth k z 0)).
Proof.
  induction n as [|n IH]; intro H; [apply (poly_const d 1 0)|]. cbn [sumn]. apply (poly_plus d 1 (fun z => sumn n (fun k => a k * nth k z 0)) (fun z => a n * nth n z 0)); [apply IH; lia|].
  apply (poly_mult d 0 1 (fun _ => a n) (fun z => nth n z 0)); [constructor|]. constructor. lia.
Qed.
Lemma affine_nth d mean L z i : (i < d)%nat -> nth i (affine d mean L z) 0 = nth i mean 0 + sumn d (fun k => L i k * nth k z 0).
Proof. intro H. unfold affine. apply nth_error_nth. rewrite nth_error_map_seq by exact H. reflexivity. Qed.
Lemma polynomial_affine d n f mean L : polynomial d n f -> exists g, polynomial d n g /\ forall z, g z = f (affine d mean L z).
Proof.
  induction 1 as [n c|n k Hk|n f g _ (f' & Pf & Ef) _ (g' & Pg & Eg)|n m f g _ (f' & Pf & Ef) _ (g' & Pg & Eg)].
  - exists (fun _ => c). split; [constructor|reflexivity].
  - exists (fun z => (fun _ => nth k mean 0) z + (fun z => sumn d (fun j => L k j * nth j z 0)) z). split; [constructor; [constructor|apply (polynomial_weaken d 1); [now apply sumn_polynomial|lia]]|]. intro z. now rewrite affine_nth.
  - exists (fun z => f' z + g' z). split; [now constructor|]. intro z. now rewrite Ef, Eg.
  - exists (fun z => f' z * g' z). split; [now constructor|]. intro z. now rewrite Ef, Eg.
Qed.
