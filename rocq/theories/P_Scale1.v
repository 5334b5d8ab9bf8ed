(** Lemmas: vectors, matrices and the chain rule for total derivatives on score rows. *)
From Verif Require Import Base BaseFacts RBase RFacts M_Logit M_Mono M_Lik M_Est M_Scale S_Scale.
Local Open Scope R_scope.

Lemma zip_with_length {A B C} (f : A -> B -> C) a b : length (zip_with f a b) = Nat.min (length a) (length b).
Proof. revert b; induction a as [|x a IH]; intros [|y b]; cbn; auto. Qed.
Lemma nth_zip_with {A B C} (f : A -> B -> C) a b i da db dc : (i < length a)%nat -> (i < length b)%nat ->
  nth i (zip_with f a b) dc = f (nth i a da) (nth i b db).
Proof.
  revert b i; induction a as [|x a IH]; intros [|y b] [|i] H1 H2; cbn in *; try lia; auto.
  apply IH; lia.
Qed.
Lemma vsub_length n a b : length a = n -> length b = n -> length (vsub a b) = n.
Proof. intros H1 H2; unfold vsub; rewrite zip_with_length; lia. Qed.
Lemma nth_vsub n a b i : length a = n -> length b = n -> nth i (vsub a b) 0 = nth i a 0 - nth i b 0.
Proof.
  intros H1 H2. destruct (lt_dec i n).
  - unfold vsub. apply nth_zip_with; lia.
  - rewrite !nth_overflow; [lra| | |]; try lia. rewrite (vsub_length n); lia.
Qed.
Lemma l1_sumn n v : length v = n -> l1 v = sumn n (fun i => Rabs (nth i v 0)).
Proof.
  intros H. unfold l1. rewrite rsum_nth, map_length, H. apply sumn_ext; intros k Hk.
  rewrite (nth_indep _ 0 (Rabs 0)) by (rewrite map_length; lia). apply map_nth.
Qed.
Lemma l1_nonneg v : 0 <= l1 v.
Proof. rewrite (l1_sumn _ v eq_refl). apply sumn_nonneg; intros; apply Rabs_pos. Qed.
Lemma sumn_abs_le n f : Rabs (sumn n f) <= sumn n (fun k => Rabs (f k)).
Proof.
  induction n as [|n IH]; cbn [sumn]; [rewrite Rabs_R0; lra|].
  eapply Rle_trans; [apply Rabs_triang|]. lra.
Qed.
Lemma vec_ext n (a b : list R) : length a = n -> length b = n -> (forall i, (i < n)%nat -> nth i a 0 = nth i b 0) -> a = b.
Proof. intros H1 H2 H. apply (nth_ext _ _ 0 0); [lia|]. intros i Hi; apply H; lia. Qed.

(** Triangle inequality through coordinates. *)
Lemma l1_le_sum n v a b : length v = n -> length a = n -> length b = n ->
  (forall i, (i < n)%nat -> nth i v 0 = nth i a 0 + nth i b 0) -> l1 v <= l1 a + l1 b.
Proof.
  intros Hv Ha Hb H. rewrite (l1_sumn n v), (l1_sumn n a), (l1_sumn n b) by assumption.
  rewrite <- sumn_plus. apply sumn_le; intros k Hk. rewrite H by assumption. apply Rabs_triang.
Qed.
Lemma mvec_length J v : length (mvec J v) = length J.
Proof. apply map_length. Qed.
Lemma is_matrix_row m n J i : is_matrix m n J -> (i < m)%nat -> length (nth i J []) = n.
Proof.
  intros [H1 H2] Hi. rewrite Forall_forall in H2. apply H2. apply nth_In; lia.
Qed.
Lemma nth_mvec m n J v i : is_matrix m n J -> length v = n -> (i < m)%nat ->
  nth i (mvec J v) 0 = sumn n (fun k => nth k (nth i J []) 0 * nth k v 0).
Proof.
  intros HJ Hv Hi. unfold mvec.
  rewrite (nth_indep _ 0 (dot [] v)) by (rewrite map_length; destruct HJ; lia).
  rewrite (map_nth (fun row => dot row v)). apply dot_sumn; [eapply is_matrix_row; eauto|assumption].
Qed.
Definition mnorm (J : list (list R)) : R := rsum (map l1 J).
Lemma mnorm_sumn m J : length J = m -> mnorm J = sumn m (fun i => l1 (nth i J [])).
Proof.
  intros H. unfold mnorm. rewrite rsum_nth, map_length, H. apply sumn_ext; intros k Hk.
  rewrite (nth_indep _ 0 (l1 [])) by (rewrite map_length; lia). apply map_nth.
Qed.
Lemma mnorm_nonneg J : 0 <= mnorm J.
Proof. rewrite (mnorm_sumn _ J eq_refl). apply sumn_nonneg; intros; apply l1_nonneg. Qed.
Lemma l1_mvec m n J v : is_matrix m n J -> length v = n -> l1 (mvec J v) <= mnorm J * l1 v.
Proof.
  intros HJ Hv. rewrite (l1_sumn m) by (rewrite mvec_length; apply HJ).
  rewrite (mnorm_sumn m) by apply HJ. rewrite <- sumn_scal_r. apply sumn_le; intros i Hi.
  rewrite (nth_mvec m n) by assumption. eapply Rle_trans; [apply sumn_abs_le|].
  rewrite (l1_sumn n (nth i J [])) by (eapply is_matrix_row; eauto). rewrite <- sumn_scal_r.
  apply sumn_le; intros k Hk. rewrite Rabs_mult. apply Rmult_le_compat_l; [apply Rabs_pos|].
  rewrite (l1_sumn n) by assumption.
  apply (sumn_term_le n (fun i => Rabs (nth i v 0))); [intros; apply Rabs_pos|assumption].
Qed.

(** Entries of products. *)
Lemma column_length {A} (d : A) j rows : length (column d j rows) = length rows.
Proof. apply map_length. Qed.
Lemma nth_column j rows k : (k < length rows)%nat -> nth k (column 0 j rows) 0 = nth j (nth k rows []) 0.
Proof.
  intros H. unfold column. rewrite (nth_indep _ 0 (nth j [] 0)) by (rewrite map_length; lia).
  rewrite (map_nth (fun r => nth j r 0)). reflexivity.
Qed.
Lemma ncols_matrix m n B : is_matrix m n B -> (0 < m)%nat -> ncols B = n.
Proof. intros [H1 H2] Hm. destruct B as [|r B]; cbn in *; [lia|]. inversion H2; auto. Qed.
Lemma vecmat_length v B : length (vecmat v B) = ncols B.
Proof. unfold vecmat; rewrite map_length, seq_length; reflexivity. Qed.
Lemma nth_map_seq {A} (f : nat -> A) n i d : (i < n)%nat -> nth i (map f (seq 0 n)) d = f i.
Proof.
  intros H. rewrite (nth_indep _ d (f O)) by (rewrite map_length, seq_length; lia).
  rewrite map_nth, seq_nth by lia. reflexivity.
Qed.
Lemma nth_vecmat m n v B j : is_matrix m n B -> (0 < m)%nat -> length v = m -> (j < n)%nat ->
  nth j (vecmat v B) 0 = sumn m (fun k => nth k v 0 * nth j (nth k B []) 0).
Proof.
  intros HB Hm Hv Hj. unfold vecmat. rewrite nth_map_seq by (rewrite (ncols_matrix m n); auto).
  rewrite (dot_sumn m); [|assumption|rewrite column_length; apply HB].
  apply sumn_ext; intros k Hk. rewrite nth_column by (destruct HB; lia). reflexivity.
Qed.
Lemma matmul_matrix m n p A B : is_matrix m n A -> is_matrix n p B -> (0 < n)%nat -> is_matrix m p (matmul A B).
Proof.
  intros HA HB Hn. split; [unfold matmul; rewrite map_length; apply HA|].
  apply Forall_forall; intros r Hr. apply in_map_iff in Hr as (r0 & <- & _).
  rewrite vecmat_length. apply (ncols_matrix n p); auto.
Qed.
Lemma nth_matmul m n p A B i j : is_matrix m n A -> is_matrix n p B -> (0 < n)%nat -> (i < m)%nat -> (j < p)%nat ->
  nth j (nth i (matmul A B) []) 0 = sumn n (fun k => nth k (nth i A []) 0 * nth j (nth k B []) 0).
Proof.
  intros HA HB Hn Hi Hj. unfold matmul.
  rewrite (nth_indep _ [] (vecmat [] B)) by (rewrite map_length; destruct HA; lia).
  rewrite (map_nth (fun row => vecmat row B)). apply (nth_vecmat n p); auto. eapply is_matrix_row; eauto.
Qed.
Lemma mvec_matmul m n p A B v : is_matrix m n A -> is_matrix n p B -> (0 < n)%nat -> length v = p ->
  mvec (matmul A B) v = mvec A (mvec B v).
Proof.
  intros HA HB Hn Hv. pose proof (matmul_matrix m n p A B HA HB Hn) as HAB.
  apply (vec_ext m); [rewrite mvec_length; apply HAB|rewrite mvec_length; apply HA|]. intros i Hi.
  rewrite (nth_mvec m p) by assumption.
  rewrite (nth_mvec m n); [|assumption|rewrite mvec_length; apply HB|assumption].
  transitivity (sumn p (fun k => sumn n (fun j => nth j (nth i A []) 0 * nth k (nth j B []) 0 * nth k v 0))).
  { apply sumn_ext; intros k Hk. rewrite (nth_matmul m n p) by assumption. rewrite <- sumn_scal_r. reflexivity. }
  rewrite sumn_swap. apply sumn_ext; intros j Hj. rewrite (nth_mvec n p) by assumption.
  rewrite <- sumn_scal. apply sumn_ext; intros k Hk. ring.
Qed.
Lemma mvec_vsub m n J u v : is_matrix m n J -> length u = n -> length v = n ->
  mvec J (vsub u v) = vsub (mvec J u) (mvec J v).
Proof.
  intros HJ Hu Hv. pose proof (proj1 HJ).
  apply (vec_ext m); [rewrite mvec_length; assumption|apply (vsub_length m); rewrite mvec_length; assumption|].
  intros i Hi. rewrite (nth_vsub m) by (rewrite mvec_length; assumption).
  rewrite !(nth_mvec m n) by (try assumption; apply vsub_length; assumption).
  rewrite <- sumn_minus. apply sumn_ext; intros k Hk. rewrite (nth_vsub n) by assumption. ring.
Qed.

(** Chain rule. *)
Lemma jacobian_compose n m p f g x J G : (0 < m)%nat -> is_jacobian n m f x J -> is_jacobian m p g (f x) G ->
  is_jacobian n p (fun y => g (f y)) x (matmul G J).
Proof.
  intros Hm (Hx & HJ & Hf & Hd) (Hfx & HG & Hg & Hd').
  split; [assumption|]. split; [eapply matmul_matrix; eauto|]. split; [intros; apply Hg; auto|].
  intros eps He. pose proof (mnorm_nonneg J) as NJ. pose proof (mnorm_nonneg G) as NG.
  set (e1 := Rmin 1 (eps / (2 * (mnorm G + 1)))).
  set (e2 := eps / (2 * (mnorm J + 1))).
  assert (H1 : 0 < e1).
  { unfold e1. apply Rmin_pos; [lra|]. apply Rdiv_lt_0_compat; lra. }
  assert (H2 : 0 < e2) by (apply Rdiv_lt_0_compat; lra).
  destruct (Hd e1 H1) as (d1 & Hd1 & B1). destruct (Hd' e2 H2) as (d2 & Hd2 & B2).
  exists (Rmin d1 (d2 / (mnorm J + 1))). split.
  { apply Rmin_pos; [assumption|]. apply Rdiv_lt_0_compat; lra. }
  intros y Hy Hlt.
  assert (Hlt1 : l1 (vsub y x) < d1) by (eapply Rlt_le_trans; [exact Hlt|apply Rmin_l]).
  assert (Hlt2 : l1 (vsub y x) < d2 / (mnorm J + 1)) by (eapply Rlt_le_trans; [exact Hlt|apply Rmin_r]).
  pose proof (B1 y Hy Hlt1) as R1. set (h := vsub y x) in *.
  pose proof (l1_nonneg h) as Nh.
  assert (Lh : length h = n) by (apply vsub_length; assumption).
  assert (LJh : length (mvec J h) = m) by (rewrite mvec_length; apply HJ).
  set (k := vsub (f y) (f x)) in *.
  assert (Lk : length k = m) by (apply vsub_length; auto).
  set (r := vsub k (mvec J h)) in *.
  assert (Lr : length r = m) by (apply vsub_length; auto).
  assert (Hk : l1 k <= (mnorm J + 1) * l1 h).
  { assert (l1 k <= l1 (mvec J h) + l1 r).
    { apply (l1_le_sum m); auto. intros i Hi. unfold r. rewrite (nth_vsub m) by auto. ring. }
    pose proof (l1_mvec m n J h HJ Lh). assert (e1 <= 1) by apply Rmin_l.
    assert (e1 * l1 h <= 1 * l1 h) by (apply Rmult_le_compat_r; assumption). lra. }
  assert (Hkd : l1 k < d2).
  { eapply Rle_lt_trans; [exact Hk|]. apply (Rmult_lt_compat_l (mnorm J + 1)) in Hlt2; [|lra].
    replace ((mnorm J + 1) * (d2 / (mnorm J + 1))) with d2 in Hlt2 by (field; lra). assumption. }
  pose proof (B2 (f y) (Hf y Hy) Hkd) as R2. fold k in R2.
  assert (LG : length (mvec G r) = p) by (rewrite mvec_length; apply HG).
  set (s := vsub (vsub (g (f y)) (g (f x))) (mvec G k)) in *.
  assert (Lg1 : length (vsub (g (f y)) (g (f x))) = p) by (apply vsub_length; auto).
  assert (LGk : length (mvec G k) = p) by (rewrite mvec_length; apply HG).
  assert (Ls : length s = p) by (apply vsub_length; auto).
  assert (E : l1 (vsub (vsub (g (f y)) (g (f x))) (mvec (matmul G J) h)) <= l1 s + l1 (mvec G r)).
  { rewrite (mvec_matmul p m n) by assumption.
    assert (LGJ : length (mvec G (mvec J h)) = p) by (rewrite mvec_length; apply HG).
    apply (l1_le_sum p); auto; [apply vsub_length; auto|]. intros i Hi.
    unfold r. rewrite (mvec_vsub p m) by auto. unfold s. rewrite !(nth_vsub p) by auto. ring. }
  pose proof (l1_mvec p m G r HG Lr) as R3.
  assert (R4 : mnorm G * l1 r <= eps / 2 * l1 h).
  { apply Rle_trans with (mnorm G * (e1 * l1 h)); [apply Rmult_le_compat_l; assumption|].
    rewrite <- Rmult_assoc. apply Rmult_le_compat_r; [assumption|].
    apply Rle_trans with (mnorm G * (eps / (2 * (mnorm G + 1)))).
    { apply Rmult_le_compat_l; [assumption|]. apply Rmin_r. }
    apply Rle_trans with ((mnorm G + 1) * (eps / (2 * (mnorm G + 1)))).
    { apply Rmult_le_compat_r; [|lra]. left; apply Rdiv_lt_0_compat; lra. }
    right; field; lra. }
  assert (R5 : e2 * l1 k <= eps / 2 * l1 h).
  { apply Rle_trans with (e2 * ((mnorm J + 1) * l1 h)); [apply Rmult_le_compat_l; lra|].
    right; unfold e2; field; lra. }
  lra.
Qed.
(** The derivative is unique. *)
Lemma upd_length {A} k (x : A) l : length (upd k x l) = length l.
Proof. revert k; induction l as [|a l IH]; intros [|k]; cbn; auto. Qed.
Lemma nth_upd {A} k (x : A) l i d : (k < length l)%nat -> nth i (upd k x l) d = if (i =? k)%nat then x else nth i l d.
Proof.
  revert k i; induction l as [|a l IH]; intros [|k] [|i] H; cbn in *; try lia; auto.
  apply IH; lia.
Qed.
Lemma partial_derivative n m f x J i j : is_jacobian n m f x J -> (i < m)%nat -> (j < n)%nat ->
  derivable_pt_lim (fun t => nth i (f (upd j t x)) 0) (nth j x 0) (nth j (nth i J []) 0).
Proof.
  intros (Hx & HJ & Hf & Hd) Hi Hj. intros eps He.
  destruct (Hd (eps / 2) ltac:(lra)) as (d & Hd0 & B). exists (mkposreal d Hd0). cbn [pos]. intros h Hh0 Hh.
  set (y := upd j (nth j x 0 + h) x).
  assert (Ly : length y = n) by (unfold y; rewrite upd_length; assumption).
  assert (Hn : forall k, nth k (vsub y x) 0 = if (k =? j)%nat then h else 0).
  { intros k. rewrite (nth_vsub n) by assumption. unfold y. rewrite nth_upd by lia.
    destruct (Nat.eqb_spec k j) as [->|]; lra. }
  assert (Hl1 : l1 (vsub y x) = Rabs h).
  { rewrite (l1_sumn n) by (apply vsub_length; assumption). rewrite (sumn_single n j).
    - rewrite Hn, Nat.eqb_refl. reflexivity.
    - assumption.
    - intros k Hk Hne. rewrite Hn. rewrite (proj2 (Nat.eqb_neq k j) Hne). apply Rabs_R0. }
  pose proof (B y Ly ltac:(rewrite Hl1; assumption)) as R1. rewrite Hl1 in R1.
  assert (Ex : upd j (nth j x 0) x = x).
  { apply (vec_ext n); [rewrite upd_length; assumption|assumption|]. intros k Hk. rewrite nth_upd by lia.
    destruct (Nat.eqb_spec k j) as [->|]; reflexivity. }
  rewrite Ex. fold y.
  assert (Lf : length (vsub (f y) (f x)) = m) by (apply vsub_length; auto).
  assert (LJ : length (mvec J (vsub y x)) = m) by (rewrite mvec_length; apply HJ).
  assert (T : Rabs (nth i (f y) 0 - nth i (f x) 0 - nth j (nth i J []) 0 * h) <= eps / 2 * Rabs h).
  { eapply Rle_trans; [|exact R1]. rewrite (l1_sumn m) by (apply vsub_length; auto).
    eapply Rle_trans; [|apply (sumn_term_le m (fun i => Rabs (nth i (vsub (vsub (f y) (f x)) (mvec J (vsub y x))) 0)) i);
      [intros; apply Rabs_pos|assumption]].
    rewrite (nth_vsub m) by assumption. rewrite (nth_vsub m) by auto.
    rewrite (nth_mvec m n); [|assumption|apply vsub_length; assumption|assumption].
    rewrite (sumn_single n j).
    - rewrite Hn, Nat.eqb_refl. right; reflexivity.
    - assumption.
    - intros k Hk Hne. rewrite Hn, (proj2 (Nat.eqb_neq k j) Hne). ring. }
  assert (Hpos : 0 < Rabs h) by (apply Rabs_pos_lt; assumption).
  replace ((nth i (f y) 0 - nth i (f x) 0) / h - nth j (nth i J []) 0)
    with ((nth i (f y) 0 - nth i (f x) 0 - nth j (nth i J []) 0 * h) / h) by (field; assumption).
  unfold Rdiv. rewrite Rabs_mult, Rabs_inv.
  apply (Rmult_lt_reg_r (Rabs h)); [assumption|]. rewrite Rmult_assoc, Rinv_l by lra.
  apply Rle_lt_trans with (eps / 2 * Rabs h); [lra|]. apply Rmult_lt_compat_r; lra.
Qed.
Lemma jacobian_unique n m f x J K : is_jacobian n m f x J -> is_jacobian n m f x K -> J = K.
Proof.
  intros HJ HK. destruct HJ as (? & MJ & ?) eqn:EJ; destruct HK as (? & MK & ?) eqn:EK.
  apply (nth_ext _ _ [] []).
  { destruct MJ, MK; lia. }
  intros i Hi. assert (Him : (i < m)%nat) by (destruct MJ; lia).
  apply (vec_ext n); [eapply is_matrix_row; eauto|eapply is_matrix_row; eauto|]. intros j Hj.
  eapply uniqueness_limite; eapply partial_derivative; eauto.
Qed.
(** Coordinatewise functions have a diagonal derivative. *)
Lemma nth_diag v i j : (i < length v)%nat -> (j < length v)%nat ->
  nth j (nth i (diag v) []) 0 = if (i =? j)%nat then nth i v 0 else 0.
Proof.
  intros Hi Hj. unfold diag. rewrite (nth_error_nth _ i [] (x := map (fun j => if (i =? j)%nat then nth i v 0 else 0) (seq 0 (length v)))).
  - rewrite nth_map_seq by assumption. reflexivity.
  - rewrite nth_error_mapi. rewrite (nth_error_nth' v 0) by assumption. reflexivity.
Qed.
Lemma diag_matrix n v : length v = n -> is_matrix n n (diag v).
Proof.
  intros H. split.
  - unfold diag. rewrite mapi_length. assumption.
  - apply Forall_forall; intros r Hr. apply In_nth_error in Hr as (i & Hi). unfold diag in Hi. rewrite nth_error_mapi in Hi.
    destruct (nth_error v i); inversion Hi. rewrite map_length, seq_length; assumption.
Qed.
Lemma jacobian_coordinatewise n (fs : nat -> R -> R) (f : list R -> list R) x l :
  length x = n -> length l = n ->
  (forall y, length y = n -> length (f y) = n) ->
  (forall y i, length y = n -> (i < n)%nat -> nth i (f y) 0 = fs i (nth i y 0)) ->
  (forall i, (i < n)%nat -> derivable_pt_lim (fs i) (nth i x 0) (nth i l 0)) ->
  is_jacobian n n f x (diag l).
Proof.
  intros Hx Hl Hf Hfs Hd. pose proof (diag_matrix n l Hl) as HM.
  split; [assumption|]. split; [assumption|]. split; [assumption|]. intros eps He.
  assert (D : exists d, 0 < d /\ forall i, (i < n)%nat -> forall h, Rabs h < d ->
    Rabs (fs i (nth i x 0 + h) - fs i (nth i x 0) - nth i l 0 * h) <= eps * Rabs h).
  { clear - Hd He. revert Hd. generalize n as m. induction m as [|m IH]; intros Hd.
    - exists 1. split; [lra|]. intros; lia.
    - destruct IH as (d & Hd0 & B); [intros; apply Hd; lia|].
      destruct (Hd m ltac:(lia) eps He) as ([d' Hd'] & B'). cbn [pos] in B'.
      exists (Rmin d d'). split; [apply Rmin_pos; assumption|]. intros i Hi h Hh.
      destruct (Nat.eq_dec i m) as [->|].
      + destruct (Req_EM_T h 0) as [->|Hn].
        * rewrite Rplus_0_r, Rmult_0_r, Rabs_R0, Rmult_0_r.
          replace (fs m (nth m x 0) - fs m (nth m x 0) - 0) with 0 by ring. rewrite Rabs_R0; lra.
        * specialize (B' h Hn ltac:(eapply Rlt_le_trans; [exact Hh|apply Rmin_r])).
          replace (fs m (nth m x 0 + h) - fs m (nth m x 0) - nth m l 0 * h)
            with (((fs m (nth m x 0 + h) - fs m (nth m x 0)) / h - nth m l 0) * h) by (field; assumption).
          rewrite Rabs_mult. apply Rmult_le_compat_r; [apply Rabs_pos|lra].
      + apply B; [lia|]. eapply Rlt_le_trans; [exact Hh|apply Rmin_l]. }
  destruct D as (d & Hd0 & B). exists d. split; [assumption|]. intros y Hy Hlt.
  assert (Lh : length (vsub y x) = n) by (apply vsub_length; assumption).
  assert (Lf : length (vsub (f y) (f x)) = n) by (apply vsub_length; auto).
  assert (LJ : length (mvec (diag l) (vsub y x)) = n) by (rewrite mvec_length; apply HM).
  rewrite (l1_sumn n) by (apply vsub_length; auto). rewrite (l1_sumn n (vsub y x)) by assumption.
  rewrite <- sumn_scal. apply sumn_le; intros i Hi.
  rewrite (nth_vsub n) by auto. rewrite (nth_vsub n (f y)) by auto. rewrite !Hfs by assumption.
  rewrite (nth_mvec n n) by assumption. rewrite (sumn_single n i).
  - rewrite nth_diag, Nat.eqb_refl by lia.
    replace (nth i y 0) with (nth i x 0 + nth i (vsub y x) 0) at 1 by (rewrite (nth_vsub n) by assumption; ring).
    apply B; [assumption|]. eapply Rle_lt_trans; [|exact Hlt]. rewrite (l1_sumn n) by assumption.
    apply (sumn_term_le n (fun i => Rabs (nth i (vsub y x) 0))); [intros; apply Rabs_pos|assumption].
  - assumption.
  - intros k Hk Hne. rewrite nth_diag by lia. rewrite (proj2 (Nat.eqb_neq i k)) by auto. ring.
Qed.
(** Linear maps are their own derivative. *)
Lemma jacobian_linear n m f x J : length x = n -> is_matrix m n J -> (forall y, length y = n -> f y = mvec J y) -> is_jacobian n m f x J.
Proof.
  intros Hx HJ Hf. split; [assumption|]. split; [assumption|].
  split. { intros y Hy; rewrite Hf by assumption; rewrite mvec_length; apply HJ. }
  intros eps He. exists 1. split; [lra|]. intros y Hy _. rewrite !Hf by assumption.
  rewrite (mvec_vsub m n) by assumption.
  assert (L : length (vsub (mvec J y) (mvec J x)) = m) by (apply vsub_length; rewrite mvec_length; apply HJ).
  rewrite (l1_sumn m) by (apply vsub_length; assumption). rewrite (sumn_ext m _ (fun _ => 0)).
  - rewrite sumn_0. apply Rmult_le_pos; [lra|apply l1_nonneg].
  - intros i Hi. rewrite (nth_vsub m) by assumption. unfold Rminus. rewrite Rplus_opp_r. apply Rabs_R0.
Qed.
