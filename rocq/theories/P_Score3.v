(** Standard errors. *)
From Coq Require Import Reals Lra Lia Classical.
From Verif Require Import Base BaseFacts RBase RFacts M_Data M_Lik M_Stat M_Score S_Stat S_Score.
Local Open Scope R_scope.

Definition form (n : nat) (I : nat -> nat -> R) (v w : nat -> R) : R := sumn n (fun i => sumn n (fun j => v i * I i j * w j)).

Lemma form_right : forall n I v w, form n I v w = sumn n (fun i => v i * sumn n (fun j => I i j * w j)).
Proof. intros. unfold form. apply sumn_ext. intros i _. rewrite <- sumn_scal. apply sumn_ext. intros j _. ring. Qed.

Lemma form_shift : forall n I x i t, (i < n)%nat -> (forall a b, (a < n)%nat -> (b < n)%nat -> I a b = I b a) -> inverse_column n I i x ->
  sumn n (fun a => sumn n (fun b => (x a - (if a =? i then t else 0)) * I a b * (x b - (if b =? i then t else 0)))) =
  x i - 2 * t + t * t * I i i.
Proof.
  intros n I x i t Hi Hs Hx.
  assert (E : forall a, (a < n)%nat -> sumn n (fun b => (x a - (if a =? i then t else 0)) * I a b * (x b - (if b =? i then t else 0))) =
                    (x a - (if a =? i then t else 0)) * ((if a =? i then 1 else 0) - t * I a i)).
  { intros a Ha. rewrite (sumn_ext n _ (fun b => (x a - (if a =? i then t else 0)) * (I a b * x b - (if b =? i then t * I a i else 0)))).
    - rewrite sumn_scal, sumn_minus, (Hx a Ha). f_equal. f_equal. rewrite (sumn_single n i) by (try exact Hi; intros k _ Hk; apply Nat.eqb_neq in Hk; rewrite Hk; reflexivity).
      rewrite Nat.eqb_refl. reflexivity.
    - intros b _. destruct (Nat.eqb_spec b i); [subst b|]; ring. }
  rewrite (sumn_ext n _ _ E).
  rewrite (sumn_ext n _ (fun a => ((if a =? i then x i - t + t * t * I i i else 0) - t * (I i a * x a)))).
  - rewrite sumn_minus, sumn_scal, (Hx i Hi), Nat.eqb_refl.
    rewrite (sumn_single n i) by (try exact Hi; intros k _ Hk; apply Nat.eqb_neq in Hk; rewrite Hk; reflexivity). rewrite Nat.eqb_refl. ring.
  - intros a Ha. rewrite (Hs a i Ha Hi). destruct (Nat.eqb_spec a i); [subst a|]; ring.
Qed.

Lemma diagonal_positive : forall n I i, positive_definite n I -> (i < n)%nat -> 0 < I i i.
Proof.
  intros n I i [_ HP] Hi. specialize (HP (fun k => if k =? i then 1 else 0)).
  assert (E : sumn n (fun a => sumn n (fun b => (if a =? i then 1 else 0) * I a b * (if b =? i then 1 else 0))) = I i i).
  { rewrite (sumn_single n i); [|exact Hi|].
    - rewrite (sumn_single n i); [|exact Hi|].
      + rewrite Nat.eqb_refl. ring.
      + intros k _ Hk. apply Nat.eqb_neq in Hk. rewrite Hk. ring.
    - intros k _ Hk. apply Nat.eqb_neq in Hk. rewrite (sumn_ext n _ (fun _ => 0)); [apply sumn_0|]. intros. rewrite Hk. ring. }
  rewrite <- E. apply HP. exists i. split; [exact Hi|]. rewrite Nat.eqb_refl. lra.
Qed.

Theorem inverse_diagonal : forall n I i x, positive_definite n I -> (i < n)%nat -> inverse_column n I i x ->
  / I i i <= x i /\ ((exists j, (j < n)%nat /\ j <> i /\ I i j <> 0) -> / I i i < x i) /\
  ((forall j, (j < n)%nat -> j <> i -> I i j = 0) -> x i = / I i i).
Proof.
  intros n I i x HP Hi Hx. assert (Hd := diagonal_positive n I i HP Hi). destruct HP as [Hs HP].
  assert (E := form_shift n I x i (/ I i i) Hi Hs Hx).
  assert (E2 : x i - 2 * / I i i + / I i i * / I i i * I i i = x i - / I i i) by (field; lra). rewrite E2 in E.
  set (v := fun a => x a - (if a =? i then / I i i else 0)) in *.
  destruct (classic (exists k, (k < n)%nat /\ v k <> 0)) as [H|H].
  - assert (0 < x i - / I i i) by (rewrite <- E; apply HP; exact H). split; [lra|]. split; [intros _; lra|].
    intros Hz. exfalso. assert (Hxi := Hx i Hi). rewrite Nat.eqb_refl in Hxi.
    rewrite (sumn_single n i) in Hxi; [|exact Hi|]. 
    + assert (x i = / I i i) by (apply (Rmult_eq_reg_l (I i i)); [rewrite Hxi; field; lra | lra]). lra.
    + intros k Hk Hki. rewrite (Hz k Hk Hki). ring.
  - assert (Z : forall k, (k < n)%nat -> v k = 0).
    { intros k Hk. destruct (Req_dec (v k) 0) as [Z|Z]; [exact Z|]. exfalso. apply H. exists k. auto. }
    assert (Exi : x i = / I i i) by (specialize (Z i Hi); unfold v in Z; rewrite Nat.eqb_refl in Z; lra).
    split; [lra|]. split; [|intros _; exact Exi]. intros (j & Hj & Hji & HI). exfalso. apply HI.
    assert (Hxj := Hx j Hj). rewrite (proj2 (Nat.eqb_neq j i) Hji) in Hxj. rewrite (sumn_single n i) in Hxj; [|exact Hi|].
    + rewrite Exi in Hxj. rewrite (Hs i j Hi Hj). apply (Rmult_eq_reg_r (/ I i i)); [rewrite Hxj; ring|]. apply Rinv_neq_0_compat. lra.
    + intros k Hk Hki. specialize (Z k Hk). unfold v in Z. rewrite (proj2 (Nat.eqb_neq k i) Hki) in Z.
      assert (x k = 0) by lra. rewrite H0. ring.
Qed.

(** ** The reported numbers *)
Lemma info_se_pos : forall v, 0 < v -> info_se (Some (Fin v)) = Some (Fin (/ sqrt v)).
Proof. intros v H. unfold info_se. destruct (Rlt_dec v 0); [lra|]. destruct (Req_EM_T v 0); [lra|reflexivity]. Qed.
Lemma info_se_zero : info_se (Some (Fin 0)) = Some PInf.
Proof. unfold info_se. destruct (Rlt_dec 0 0); [lra|]. destruct (Req_EM_T 0 0); [reflexivity|lra]. Qed.

Lemma diagonal_entry : forall n (M : list (list fl)) (f : nat -> nat -> R) i, length M = n -> (forall k, (k < n)%nat -> entry M k k (f k k)) ->
  (i < n)%nat -> nth_error (diagonal M) i = Some (Some (Fin (f i i))).
Proof.
  intros n M f i HL H Hi. unfold diagonal. rewrite HL. rewrite nth_error_map_seq by exact Hi. rewrite Nat.add_0_l.
  f_equal. specialize (H i Hi). unfold entry in H. apply nth_error_nth. exact H.
Qed.

Lemma inv_sqrt_square : forall v, 0 < v -> (/ sqrt v) * (/ sqrt v) = / v.
Proof. intros v H. rewrite <- Rinv_mult. rewrite sqrt_sqrt by lra. reflexivity. Qed.

Lemma osum_numbers : forall l, osum (numbers l) = Some (rsum l).
Proof. induction l as [|x l IH]; [reflexivity|]. cbn [numbers map osum rsum]. change (map Some l) with (numbers l). rewrite IH. reflexivity. Qed.
Lemma zip_numbers : forall f a b, zip_with (olift2 f) (numbers a) (numbers b) = numbers (zip_with f a b).
Proof. intros f a. induction a as [|x a IH]; intros [|y b]; try reflexivity. cbn. f_equal. apply IH. Qed.

(** The delta method. *)
Theorem delta_numbers : forall J se, delta_se (map numbers J) (numbers se) =
  numbers (map (fun Ji => sqrt (rsum (zip_with (fun j s => j * j * (s * s)) Ji se))) J).
Proof.
  intros J se. unfold delta_se, numbers at 3. rewrite !map_map. apply map_ext. intros Ji. rewrite zip_numbers, osum_numbers. reflexivity.
Qed.
Theorem delta_one : forall j s, 0 <= s -> delta_se [[Some j]] [Some s] = [Some (Rabs j * s)].
Proof.
  intros j s H. cbn. do 2 f_equal. replace (j * j * (s * s) + 0) with ((j * s) * (j * s)) by ring.
  rewrite <- (Rabs_pos_eq s H) at 3. rewrite <- Rabs_mult. apply sqrt_Rsqr_abs.
Qed.
