(** Lemmas: moments under a standard normal functional, positive definite matrices, and the rule of gauss_hermite. *)
From Verif Require Import Base BaseFacts RBase RFacts M_CV M_Data M_Lik M_Est M_Mix M_Quad P_Mix1 P_Est3 P_Quad1 S_Quad.
Import List.
Local Open Scope R_scope.

(** ** Quadratic forms *)
Lemma form_squares n m (v : nat -> R) (L : nat -> nat -> R) :
  sumn m (fun i => sumn m (fun j => v i * sumn n (fun k => L i k * L j k) * v j)) = sumn n (fun k => sumn m (fun i => v i * L i k) ^ 2).
Proof.
  rewrite (sumn_ext n (fun k => sumn m (fun i => v i * L i k) ^ 2) (fun k => sumn m (fun i => sumn m (fun j => v i * L i k * (v j * L j k))))).
  2:{ intros k _. rewrite <- sumn_mul. ring. }
  symmetry. rewrite sumn_swap. apply sumn_ext. intros i _. rewrite sumn_swap. apply sumn_ext. intros j _. rewrite <- sumn_scal, <- sumn_scal_r. apply sumn_ext. intros k _. ring.
Qed.
Lemma back_solve n L : lower L -> pos_diag n L -> forall b, exists v : nat -> R, (forall k, (k < n)%nat -> sumn n (fun i => v i * L i k) = b k) /\ forall i, (n <= i)%nat -> v i = 0.
Proof.
  intros HL. induction n as [|n IH]; intros HP b; [exists (fun _ => 0); split; [intros; lia|reflexivity]|].
  assert (Pn : 0 < L n n) by (apply HP; lia). destruct (IH ltac:(intros k Hk; apply HP; lia) (fun k => b k - b n / L n n * L n k)) as (v & Hv & Hz).
  exists (fun i => if (i =? n)%nat then b n / L n n else v i). split.
  - intros k Hk. cbn [sumn]. rewrite Nat.eqb_refl. rewrite (sumn_ext n _ (fun i => v i * L i k)) by (intros i Hi; destruct (Nat.eqb_spec i n); [lia|reflexivity]).
    destruct (Nat.eq_dec k n) as [->|N].
    + rewrite (sumn_ext n _ (fun _ => 0)) by (intros i Hi; rewrite (HL i n) by lia; ring). rewrite sumn_0. field. lra.
    + rewrite Hv by lia. ring.
  - intros i Hi. destruct (Nat.eqb_spec i n); [lia|]. apply Hz. lia.
Qed.
Lemma definite_chol d s : symmetric_matrix d s -> positive_definite d s -> exists L, chol d s = Some L.
Proof.
  intros HS HP. assert (G : forall n, (n <= d)%nat -> exists L, chol n s = Some L); [|now apply G].
  induction n as [|n IH]; intro Hn; [eexists; reflexivity|]. destruct (IH ltac:(lia)) as (L & EL). cbn [chol]. rewrite EL. unfold chol_column. destruct (chol_inv n s L EL) as (Z & HL & PD & HI).
  destruct (back_solve n L HL PD (fun k => - L n k)) as (v & Hv & Hz). set (p := s n n - sumn n (fun k => L n k ^ 2)).
  assert (P : 0 < p); [|destruct (Rlt_dec 0 p); [eexists; reflexivity|contradiction]].
  pose (u := fun i => if (i =? n)%nat then 1 else v i).
  assert (Uz : forall i, (S n <= i)%nat -> u i = 0) by (intros i Hi; unfold u; destruct (Nat.eqb_spec i n); [lia|apply Hz; lia]).
  assert (Q : sumn d (fun i => sumn d (fun j => u i * s i j * u j)) = p).
  { rewrite (sumn_truncate (S n) d); [|lia|intros i Hi; rewrite (sumn_ext d _ (fun _ => 0)) by (intros; rewrite (Uz i) by lia; ring); apply sumn_0].
    rewrite (sumn_ext (S n) _ (fun i => sumn (S n) (fun j => u i * sumn n (fun k => L i k * L j k) * u j) + (if (i =? n)%nat then p else 0))).
    - rewrite sumn_plus, form_squares. rewrite (sumn_ext n _ (fun _ => 0)).
      + rewrite sumn_0, (sumn_single (S n) n); [rewrite Nat.eqb_refl; ring|lia|]. intros k _ Hk. destruct (Nat.eqb_spec k n); [contradiction|reflexivity].
      + intros k Hk. cbn [sumn]. unfold u at 2. rewrite Nat.eqb_refl. rewrite (sumn_ext n _ (fun i => v i * L i k)) by (intros i Hi; unfold u; destruct (Nat.eqb_spec i n); [lia|reflexivity]). rewrite Hv by exact Hk. ring.
    - intros i Hi. rewrite (sumn_truncate (S n) d) by (try lia; intros k Hk; rewrite (Uz k) by lia; ring).
      assert (T : forall i j, (i <= n)%nat -> (j <= i)%nat -> (j < n)%nat -> s i j = sumn n (fun k => L i k * L j k)).
      { intros a b Ha Hb Hb'. rewrite <- (HI b a) by lia. rewrite (sumn_truncate (S b) n); [reflexivity|lia|]. intros k Hk. rewrite (HL b k) by lia. ring. }
      assert (T2 : forall i j, (i <= n)%nat -> (j <= n)%nat -> s i j = sumn n (fun k => L i k * L j k) + (if ((i =? n) && (j =? n))%nat then p else 0)).
      { intros a b Ha Hb. destruct (Nat.eqb_spec a n) as [->|Na]; destruct (Nat.eqb_spec b n) as [->|Nb]; cbn [andb].
        - unfold p. rewrite (sumn_ext n (fun k => L n k * L n k) (fun k => L n k ^ 2)) by (intros; ring). ring.
        - rewrite T by lia. ring.
        - rewrite HS, T by lia. rewrite (sumn_ext n (fun k => L a k * L n k) (fun k => L n k * L a k)) by (intros; ring). ring.
        - destruct (Nat.le_gt_cases b a); [rewrite T by lia; ring|]. rewrite HS, T by lia. rewrite (sumn_ext n (fun k => L a k * L b k) (fun k => L b k * L a k)) by (intros; ring). ring. }
      rewrite (sumn_ext (S n) _ (fun j => u i * sumn n (fun k => L i k * L j k) * u j + u i * (if ((i =? n) && (j =? n))%nat then p else 0) * u j)) by (intros j Hj; rewrite (T2 i j) by lia; ring).
      rewrite sumn_plus. f_equal. destruct (Nat.eqb_spec i n) as [->|Ni]; cbn [andb].
      + rewrite (sumn_single (S n) n); [rewrite Nat.eqb_refl; unfold u; rewrite Nat.eqb_refl; ring|lia|]. intros k _ Hk. destruct (Nat.eqb_spec k n); [contradiction|ring].
      + rewrite (sumn_ext (S n) _ (fun _ => 0)) by (intros; ring). apply sumn_0. }
  rewrite <- Q. apply HP. exists n. split; [lia|]. unfold u. rewrite Nat.eqb_refl. lra.
Qed.
Lemma chol_definite d s L : symmetric_matrix d s -> chol d s = Some L -> positive_definite d s.
Proof.
  intros HS HC v (i & Hi & Vi). destruct (chol_spec d s L HS HC) as (HL & HP & HF).
  rewrite (sumn_ext d _ (fun i => sumn d (fun j => v i * sumn d (fun k => L i k * L j k) * v j))) by (intros a Ha; apply sumn_ext; intros b Hb; now rewrite HF).
  rewrite form_squares.
  (* the last nonzero coordinate *)
  assert (M : exists m, (m < d)%nat /\ v m <> 0 /\ forall j, (m < j < d)%nat -> v j = 0).
  { assert (G : forall e, (e <= d)%nat -> (forall j, (d - e <= j < d)%nat -> v j = 0) \/ exists m, (m < d)%nat /\ v m <> 0 /\ forall j, (m < j < d)%nat -> v j = 0).
    { clear. induction e as [|e IH]; intro He; [left; intros; lia|]. destruct (IH ltac:(lia)) as [Z|M]; [|now right]. destruct (Req_EM_T (v (d - S e)%nat) 0) as [V|V].
      - left. intros j Hj. destruct (Nat.eq_dec j (d - S e)) as [->|]; [exact V|]. apply Z. lia.
      - right. exists (d - S e)%nat. split; [lia|]. split; [exact V|]. intros j Hj. apply Z. lia. }
    destruct (G d (le_n d)) as [Z|M]; [|exact M]. exfalso. apply Vi. apply Z. lia. }
  destruct M as (m & Hm & Vm & Zm).
  apply (sumn_pos_one d _ m); [intros k _; apply pow2_ge_0|exact Hm|].
  assert (Q : sumn d (fun i => v i * L i m) = v m * L m m).
  { apply (sumn_single d m (fun i => v i * L i m)); [exact Hm|]. intros k Hk Nk. destruct (Nat.lt_ge_cases k m); [rewrite (HL k m) by lia; ring|rewrite (Zm k) by lia; ring]. }
  rewrite Q. rewrite <- Rsqr_pow2. apply Rlt_0_sqr. apply Rmult_integral_contrapositive_currified; [exact Vm|]. specialize (HP m Hm). lra.
Qed.
Lemma chol_lower d s s' : (forall i j, (j <= i < d)%nat -> s i j = s' i j) -> forall n, (n <= d)%nat ->
  match chol n s, chol n s' with Some L, Some L' => forall i k, (i < d)%nat -> L i k = L' i k | None, None => True | _, _ => False end.
Proof.
  intros H. induction n as [|n IH]; intro Hn; [cbn; intros; reflexivity|]. specialize (IH ltac:(lia)). cbn [chol]. destruct (chol n s) as [L|]; destruct (chol n s') as [L'|]; try tauto.
  unfold chol_column. rewrite (H n n) by lia. rewrite (sumn_ext n (fun k => L n k ^ 2) (fun k => L' n k ^ 2)) by (intros; rewrite IH by lia; reflexivity).
  set (p := s' n n - sumn n (fun k => L' n k ^ 2)). destruct (Rlt_dec 0 p); [|exact I]. intros i k Hi. destruct (Nat.eqb_spec k n); [|now apply IH].
  destruct (Nat.ltb_spec i n); [reflexivity|]. destruct (Nat.eqb_spec i n); [reflexivity|]. rewrite (H i n) by lia.
  rewrite (sumn_ext n (fun k => L i k * L n k) (fun k => L' i k * L' n k)) by (intros; rewrite !IH by lia; reflexivity). reflexivity.
Qed.

(** ** Moments *)
Lemma prod_zero l : In 0 l -> fold_right Rmult 1 l = 0.
Proof. induction l as [|x l IH]; intros []; [subst; cbn; ring|]. cbn [fold_right]. rewrite IH by assumption. ring. Qed.
Lemma prod_ones l : Forall (fun x => x = 1) l -> fold_right Rmult 1 l = 1.
Proof. induction 1 as [|x l -> _ IH]; [reflexivity|]. cbn [fold_right]. rewrite IH. ring. Qed.
Section moments.
Variables (d D : nat) (E : (list R -> R) -> R).
Hypothesis HE : standard_normal d D E.
Definition unit_at (k : nat) : list nat := map (fun i => if (i =? k)%nat then 1%nat else 0%nat) (seq 0 d).
Lemma unit_length k : length (unit_at k) = d.
Proof. unfold unit_at. now rewrite map_length, seq_length. Qed.
Lemma unit_nth k i : (i < d)%nat -> nth_error (unit_at k) i = Some (if (i =? k)%nat then 1%nat else 0%nat).
Proof. intro H. unfold unit_at. now rewrite nth_error_map_seq by exact H. Qed.
Lemma sn_const c : E (fun _ => c) = c.
Proof.
  rewrite (sn_ext d D E HE (fun _ => c) (fun z => c * power (repeat 0%nat d) z)) by (intros; rewrite power_zero; ring). rewrite (sn_scale d D E HE), (sn_power d D E HE); [|apply repeat_length|rewrite list_sum_zero; lia].
  rewrite prod_ones; [ring|]. apply Forall_forall. intros x Hx. apply in_map_iff in Hx as (k & <- & Hk). apply repeat_spec in Hk. now subst.
Qed.
Lemma sn_coord k : (1 <= D)%nat -> (k < d)%nat -> E (fun z => nth k z 0) = 0.
Proof.
  intros HD Hk. rewrite (sn_ext d D E HE _ (power (unit_at k))) by (intros; symmetry; now apply power_unit). rewrite (sn_power d D E HE); [|apply unit_length|pose proof (list_sum_unit d k) as Q; unfold unit_at; lia].
  apply prod_zero. apply in_map_iff. exists 1%nat. split; [reflexivity|]. apply (nth_error_In _ k). rewrite unit_nth by exact Hk. now rewrite Nat.eqb_refl.
Qed.
Lemma sn_pair k l : (2 <= D)%nat -> (k < d)%nat -> (l < d)%nat -> E (fun z => nth k z 0 * nth l z 0) = if (k =? l)%nat then 1 else 0.
Proof.
  intros HD Hk Hl. rewrite (sn_ext d D E HE _ (power (zip_with Nat.add (unit_at k) (unit_at l)))).
  2:{ intros z Hz. rewrite <- (power_add d) by (apply unit_length || exact Hz). unfold unit_at. now rewrite !power_unit. }
  rewrite (sn_power d D E HE).
  - destruct (Nat.eqb_spec k l) as [->|N].
    + apply prod_ones. apply Forall_forall. intros x Hx. apply in_map_iff in Hx as (e & <- & He). apply In_nth_error in He as [i Hi]. rewrite nth_error_zip_with in Hi. destruct (Nat.lt_ge_cases i d) as [Li|Li].
      * rewrite !unit_nth in Hi by exact Li. injection Hi as <-. destruct (i =? l)%nat; cbn; ring.
      * rewrite (proj2 (nth_error_None _ _)) in Hi by (rewrite unit_length; exact Li). discriminate.
    + apply prod_zero. apply in_map_iff. exists 1%nat. split; [reflexivity|]. apply (nth_error_In _ k). rewrite nth_error_zip_with, !unit_nth by exact Hk. rewrite Nat.eqb_refl. now destruct (Nat.eqb_spec k l).
  - rewrite zip_with_length, !unit_length. lia.
  - rewrite (list_sum_add d) by apply unit_length. pose proof (list_sum_unit d k). pose proof (list_sum_unit d l). unfold unit_at. lia.
Qed.
Lemma sn_sum n (a : nat -> R) (f : nat -> list R -> R) : E (fun z => sumn n (fun k => a k * f k z)) = sumn n (fun k => a k * E (f k)).
Proof.
  induction n as [|n IH]; [exact (sn_const 0)|]. cbn [sumn]. rewrite <- IH, <- (sn_scale d D E HE), <- (sn_plus d D E HE). apply (sn_ext d D E HE). reflexivity.
Qed.
Lemma affine_mean mean L i : (1 <= D)%nat -> (i < d)%nat -> E (fun z => nth i (affine d mean L z) 0) = nth i mean 0.
Proof.
  intros HD Hi. rewrite (sn_ext d D E HE _ (fun z => (fun _ => nth i mean 0) z + (fun z => sumn d (fun k => L i k * nth k z 0)) z)) by (intros; now apply affine_nth).
  rewrite (sn_plus d D E HE), sn_const, (sn_sum d (L i) (fun k z => nth k z 0)), (sumn_ext d _ (fun _ => 0)) by (intros; rewrite sn_coord by assumption; ring). rewrite sumn_0. ring.
Qed.
Lemma affine_cov mean L s i j : (2 <= D)%nat -> (i < d)%nat -> (j < d)%nat -> factor d L s ->
  E (fun z => (nth i (affine d mean L z) 0 - nth i mean 0) * (nth j (affine d mean L z) 0 - nth j mean 0)) = s i j.
Proof.
  intros HD Hi Hj HF. rewrite (sn_ext d D E HE _ (fun z => sumn d (fun k => L i k * (fun z => sumn d (fun l => L j l * (nth k z 0 * nth l z 0))) z))).
  - rewrite (sn_sum d (L i) (fun k z => sumn d (fun l => L j l * (nth k z 0 * nth l z 0)))). rewrite <- (HF i j Hi Hj). apply sumn_ext. intros k Hk. f_equal.
    rewrite (sn_sum d (L j) (fun l z => nth k z 0 * nth l z 0)). rewrite (sumn_ext d _ (fun l => L j l * (if (k =? l)%nat then 1 else 0))) by (intros l Hl; now rewrite sn_pair).
    rewrite (sumn_single d k); [rewrite Nat.eqb_refl; ring|exact Hk|]. intros l _ Nl. destruct (Nat.eqb_spec k l); [congruence|ring].
  - intros z Hz. rewrite !affine_nth by assumption. replace (nth i mean 0 + sumn d (fun k => L i k * nth k z 0) - nth i mean 0) with (sumn d (fun k => L i k * nth k z 0)) by ring. replace (nth j mean 0 + sumn d (fun k => L j k * nth k z 0) - nth j mean 0) with (sumn d (fun k => L j k * nth k z 0)) by ring.
    rewrite sumn_mul. apply sumn_ext. intros k _. rewrite <- sumn_scal. apply sumn_ext. intros l _. ring.
Qed.
End moments.

(** ** The rule of gauss_hermite *)
Lemma gauss_hermite_ok nodes ws mean cov rule : gauss_hermite nodes ws mean cov = Ok rule ->
  length (w_rows cov) = length mean /\ w_cols cov = length mean /\ exists L, chol (length mean) (at_ cov) = Some L /\
  forall f, integral rule f = Rpower PI (- (1 / 2) * INR (length mean)) * integral (grid nodes ws (length mean)) (fun x => f (affine (length mean) mean L (map (fun v => sqrt 2 * v) x))).
Proof.
  unfold gauss_hermite. destruct (Nat.eqb_spec (length (w_rows cov)) (w_cols cov)) as [E1|]; [|discriminate]. destruct (chol (w_cols cov) (at_ cov)) as [L|] eqn:EC; [|discriminate]. destruct (Nat.eqb_spec (w_cols cov) (length mean)) as [E2|]; [|discriminate].
  intro H. injection H as <-. split; [congruence|]. split; [exact E2|]. exists L. rewrite <- E2. split; [exact EC|]. rewrite E2. intro f. rewrite integral_map. f_equal. apply integral_ext. intros x Hx. f_equal. unfold affine. apply map_ext_in. intros i Hi. apply in_seq in Hi.
  cbn [fst grid] in Hx. pose proof (product_len nodes (length mean) x Hx) as Lx. rewrite Rplus_comm. f_equal. rewrite <- sumn_scal. apply sumn_ext. intros k Hk.
  rewrite (nth_error_nth (map (fun v => sqrt 2 * v) x) k 0 (x := sqrt 2 * nth k x 0)); [ring|]. rewrite nth_error_map, (nth_error_nth_lt x k 0) by lia. reflexivity.
Qed.
(** Every exact rule is an expectation. *)
Lemma rule_standard_normal d D nodes ws : exact_to D nodes ws ->
  standard_normal d D (fun f => Rpower PI (- (1 / 2) * INR d) * integral (grid nodes ws d) (fun x => f (map (fun v => sqrt 2 * v) x))).
Proof.
  intros HX. constructor.
  - intros f g H. f_equal. apply integral_ext. intros y Hy. apply H. rewrite map_length. exact (product_len nodes d y Hy).
  - intros f g. rewrite integral_plus. ring.
  - intros c f. rewrite (integral_scale _ c). ring.
  - intros e Le Se. rewrite <- Le at 2. rewrite (exact_powers D) by assumption. rewrite Le, <- Rmult_assoc, const_pow. ring.
Qed.
