(** Proofs: B-spline basis functions of a nondecreasing knot sequence. *)
From Verif Require Import Base BaseFacts RBase RFacts M_BSpl.
Local Open Scope R_scope.

Section Knots.
  Variable t : nat -> R.
  Hypothesis sorted : forall i j, (i <= j)%nat -> t i <= t j.

  Lemma bbasis_outside p : forall i x, x < t i \/ t (S i + p)%nat <= x -> bbasis t p i x = 0.
  Proof.
    induction p as [|p IH]; intros i x H.
    - cbn [bbasis]. rewrite Nat.add_0_r in H. destruct (Rle_dec (t i) x); [|reflexivity]. destruct (Rlt_dec x (t (S i))); [|reflexivity]. lra.
    - cbn [bbasis]. rewrite (IH i x), (IH (S i) x); [ring| |].
      + destruct H as [H|H]; [left; pose proof (sorted i (S i) ltac:(lia)); lra|right]. replace (S (S i) + p)%nat with (S i + S p)%nat by lia. exact H.
      + destruct H as [H|H]; [left; exact H|right]. pose proof (sorted (S i + p) (S i + S p) ltac:(lia)). lra.
  Qed.
  Lemma ratio_nonneg a b : 0 <= a -> 0 <= b -> 0 <= ratio a b.
  Proof.
    intros Ha Hb. unfold ratio. destruct (Req_EM_T b 0); [lra|]. apply Rmult_le_pos; [exact Ha|]. left. apply Rinv_0_lt_compat. lra.
  Qed.
  Lemma bbasis_nonneg p : forall i x, 0 <= bbasis t p i x.
  Proof.
    induction p as [|p IH]; intros i x.
    - cbn [bbasis]. destruct (Rle_dec (t i) x); [destruct (Rlt_dec x (t (S i)))|]; lra.
    - cbn [bbasis]. apply Rplus_le_le_0_compat.
      + destruct (Rlt_le_dec x (t i)) as [H|H]; [rewrite bbasis_outside by auto; lra|].
        apply Rmult_le_pos; [|apply IH]. apply ratio_nonneg; [lra|]. pose proof (sorted i (i + S p) ltac:(lia)). lra.
      + destruct (Rlt_le_dec x (t (S (S i) + p)%nat)) as [H|H]; [|rewrite (bbasis_outside p (S i)) by auto; lra].
        apply Rmult_le_pos; [|apply IH]. replace (S i + S p)%nat with (S (S i) + p)%nat by lia.
        apply ratio_nonneg; [lra|]. pose proof (sorted (S i) (S (S i) + p) ltac:(lia)). lra.
  Qed.
  (** The two factors of a basis function in the next degree add up to one. *)
  Lemma bbasis_factors p i x :
    ratio (x - t i) (t (i + S p)%nat - t i) * bbasis t p i x + ratio (t (i + S p)%nat - x) (t (i + S p)%nat - t i) * bbasis t p i x
    = bbasis t p i x.
  Proof.
    unfold ratio. destruct (Req_EM_T (t (i + S p)%nat - t i) 0) as [E|E].
    - rewrite (bbasis_outside p i x); [ring|]. replace (S i + p)%nat with (i + S p)%nat by lia. destruct (Rlt_le_dec x (t i)); [left; auto|right; lra].
    - field. exact E.
  Qed.

  (** Sums of the basis functions from number [j] on. *)
  Variable n : nat.
  Definition btail (p j : nat) (x : R) : R := sumn (n - j) (fun k => bbasis t p (j + k) x).
  Lemma btail_step p j x : (j < n)%nat -> btail p j x = bbasis t p j x + btail p (S j) x.
  Proof.
    intro H. unfold btail. replace (n - j)%nat with (S (n - S j)) by lia. rewrite sumn_S_first. rewrite Nat.add_0_r. f_equal.
    apply sumn_ext. intros k _. f_equal. lia.
  Qed.
  Lemma btail_end p j x : (n <= j)%nat -> btail p j x = 0.
  Proof. intro H. unfold btail. replace (n - j)%nat with 0%nat by lia. reflexivity. Qed.
  Lemma btail_rec p x : x < t n -> forall q j, (j + S q = n)%nat ->
    btail (S p) j x = ratio (x - t j) (t (j + S p)%nat - t j) * bbasis t p j x + btail p (S j) x.
  Proof.
    intros Hx. induction q as [|q IH]; intros j Hj.
    - rewrite btail_step by lia. rewrite !btail_end by lia. cbn [bbasis].
      rewrite (bbasis_outside p (S j) x); [ring|]. left. replace (S j) with n by lia. exact Hx.
    - rewrite btail_step by lia. rewrite (IH (S j)) by lia. rewrite (btail_step p (S j)) by lia. cbn [bbasis].
      pose proof (bbasis_factors p (S j) x) as E. lra.
  Qed.
  Lemma btail_rec' p j x : x < t n -> (j < n)%nat ->
    btail (S p) j x = ratio (x - t j) (t (j + S p)%nat - t j) * (btail p j x - btail p (S j) x) + btail p (S j) x.
  Proof.
    intros Hx Hj. rewrite (btail_rec p x Hx (n - S j) j) by lia. rewrite (btail_step p j x Hj). ring.
  Qed.
  Lemma btail_zero x : x < t n -> forall q j, (j + q = n)%nat -> btail 0 j x = if Rle_dec (t j) x then 1 else 0.
  Proof.
    intros Hx. induction q as [|q IH]; intros j Hj.
    - rewrite btail_end by lia. replace j with n by lia. destruct (Rle_dec (t n) x); lra.
    - rewrite btail_step by lia. rewrite (IH (S j)) by lia. cbn [bbasis]. pose proof (sorted j (S j) ltac:(lia)).
      destruct (Rle_dec (t j) x), (Rlt_dec x (t (S j))), (Rle_dec (t (S j)) x); lra.
  Qed.
  Lemma btail_antitone p j x : btail p (S j) x <= btail p j x.
  Proof.
    destruct (Nat.lt_ge_cases j n) as [H|H]; [|rewrite !btail_end by lia; lra].
    rewrite (btail_step p j) by auto. pose proof (bbasis_nonneg p j x). lra.
  Qed.
  Lemma btail_nonneg p j x : 0 <= btail p j x.
  Proof. apply sumn_nonneg. intros. apply bbasis_nonneg. Qed.
  Lemma btail_left p j x : x < t j -> btail p j x = 0.
  Proof.
    intro H. unfold btail. rewrite <- (sumn_0 (n - j)). apply sumn_ext. intros k _. apply bbasis_outside. left. pose proof (sorted j (j + k) ltac:(lia)). lra.
  Qed.
  Lemma index_below q j x : x < t n -> t (j + q)%nat <= x -> (j < n)%nat.
  Proof.
    intros Hx Hj. destruct (Nat.lt_ge_cases j n) as [?|Hc]; auto. pose proof (sorted n (j + q) ltac:(lia)). lra.
  Qed.
  Lemma btail_one p : forall j x, x < t n -> t (j + p)%nat <= x -> btail p j x = 1.
  Proof.
    induction p as [|p IH]; intros j x Hx Hj; pose proof (index_below _ _ _ Hx Hj) as Hjn.
    - rewrite (btail_zero x Hx (n - j) j) by lia. rewrite Nat.add_0_r in Hj. destruct (Rle_dec (t j) x); lra.
    - rewrite (btail_rec p x Hx (n - S j) j) by lia. rewrite (IH (S j) x Hx) by (replace (S j + p)%nat with (j + S p)%nat by lia; exact Hj).
      rewrite (bbasis_outside p j x); [ring|]. right. replace (S j + p)%nat with (j + S p)%nat by lia. exact Hj.
  Qed.
  Lemma ratio_bounds x a b : a <= x -> x < b -> 0 <= ratio (x - a) (b - a) < 1.
  Proof.
    intros Ha Hb. unfold ratio. destruct (Req_EM_T (b - a) 0); [lra|]. split.
    - apply Rmult_le_pos; [lra|]. left. apply Rinv_0_lt_compat. lra.
    - apply Rmult_lt_reg_r with (b - a); [lra|]. unfold Rdiv. rewrite Rmult_assoc, Rinv_l by lra. lra.
  Qed.
  Lemma ratio_le x y a b : a < b -> x <= y -> ratio (x - a) (b - a) <= ratio (y - a) (b - a).
  Proof.
    intros Hb Hxy. unfold ratio. destruct (Req_EM_T (b - a) 0); [lra|]. apply Rmult_le_compat_r; [|lra]. left. apply Rinv_0_lt_compat. lra.
  Qed.
  Lemma ratio_lt x y a b : a < b -> x < y -> ratio (x - a) (b - a) < ratio (y - a) (b - a).
  Proof.
    intros Hb Hxy. unfold ratio. destruct (Req_EM_T (b - a) 0); [lra|]. apply Rmult_lt_compat_r; [|lra]. apply Rinv_0_lt_compat. lra.
  Qed.
  Lemma btail_le_one p : forall j x, x < t n -> btail p j x <= 1.
  Proof.
    induction p as [|p IH]; intros j x Hx; (destruct (Nat.lt_ge_cases j n) as [Hj|Hj]; [|rewrite btail_end by auto; lra]).
    - rewrite (btail_zero x Hx (n - j) j) by lia. destruct (Rle_dec (t j) x); lra.
    - destruct (Rlt_le_dec x (t j)) as [H|H]; [rewrite btail_left by auto; lra|].
      destruct (Rlt_le_dec x (t (j + S p)%nat)) as [H2|H2]; [|rewrite btail_one by auto; lra].
      rewrite btail_rec' by auto. pose proof (ratio_bounds x (t j) (t (j + S p)%nat) H H2) as [A1 A2]. pose proof (btail_antitone p j x). pose proof (IH j x Hx). pose proof (IH (S j) x Hx). nra.
  Qed.
  Lemma btail_monotone p : forall j x y, x <= y -> y < t n -> btail p j x <= btail p j y.
  Proof.
    induction p as [|p IH]; intros j x y Hxy Hy; (destruct (Nat.lt_ge_cases j n) as [Hj|Hj]; [|rewrite !btail_end by auto; lra]).
    - rewrite (btail_zero x ltac:(lra) (n - j) j), (btail_zero y Hy (n - j) j) by lia. destruct (Rle_dec (t j) x), (Rle_dec (t j) y); lra.
    - destruct (Rlt_le_dec x (t j)) as [H|H]; [rewrite btail_left by auto; apply btail_nonneg|].
      destruct (Rlt_le_dec y (t (j + S p)%nat)) as [H2|H2]; [|rewrite (btail_one (S p) j y) by auto; apply btail_le_one; lra].
      rewrite !btail_rec' by (auto; lra).
      pose proof (ratio_bounds x (t j) (t (j + S p)%nat) H ltac:(lra)) as [A1 A2].
      pose proof (ratio_bounds y (t j) (t (j + S p)%nat) ltac:(lra) H2) as [B1 B2].
      pose proof (ratio_le x y (t j) (t (j + S p)%nat) ltac:(lra) Hxy) as C.
      pose proof (btail_antitone p j y). pose proof (IH j x y Hxy Hy). pose proof (IH (S j) x y Hxy Hy).
      set (a := ratio (x - t j) _) in *. set (b := ratio (y - t j) _) in *.
      assert (a * btail p j x + (1 - a) * btail p (S j) x <= a * btail p j y + (1 - a) * btail p (S j) y) by nra. nra.
  Qed.
  (** Of positive degree, the sum from the interval of [x] on increases strictly. *)
  Lemma btail_strict p : forall k x y, x < y -> y < t n -> t k <= x -> x < t (S k) -> btail (S p) k x < btail (S p) k y.
  Proof.
    induction p as [|p IH]; intros k x y Hxy Hy Hk Hk'; assert (Hkn : (k < n)%nat) by (destruct (Nat.lt_ge_cases k n) as [?|Hc]; auto; pose proof (sorted n k Hc); lra).
    - rewrite !btail_rec' by (auto; lra). rewrite (btail_left 0 (S k) x Hk').
      rewrite (btail_zero x ltac:(lra) (n - k) k), (btail_zero y Hy (n - k) k), (btail_zero y Hy (n - S k) (S k)) by lia.
      destruct (Rle_dec (t k) x); [|lra]. destruct (Rle_dec (t k) y); [|lra].
      pose proof (ratio_bounds x (t k) (t (k + 1)%nat) Hk) as A. replace (k + 1)%nat with (S k) in * by lia. specialize (A Hk').
      destruct (Rle_dec (t (S k)) y); [lra|]. pose proof (ratio_lt x y (t k) (t (S k)) ltac:(lra) Hxy). lra.
    - rewrite (btail_rec' (S p) k x) by (auto; lra). rewrite (btail_left (S p) (S k) x Hk').
      pose proof (sorted (S k) (k + S (S p)) ltac:(lia)) as Ho.
      pose proof (ratio_bounds x (t k) (t (k + S (S p))%nat) Hk ltac:(lra)) as [A1 A2].
      pose proof (btail_nonneg (S p) k x) as N1. pose proof (btail_le_one (S p) k x ltac:(lra)) as N2.
      destruct (Rlt_le_dec y (t (k + S (S p))%nat)) as [H2|H2]; [|rewrite (btail_one (S (S p)) k y) by auto; nra].
      rewrite (btail_rec' (S p) k y) by auto.
      pose proof (ratio_bounds y (t k) (t (k + S (S p))%nat) ltac:(lra) H2) as [B1 B2].
      pose proof (ratio_lt x y (t k) (t (k + S (S p))%nat) ltac:(lra) Hxy) as C. pose proof (IH k x y Hxy Hy Hk Hk') as I.
      pose proof (btail_antitone (S p) k y). pose proof (btail_nonneg (S p) (S k) y).
      set (a := ratio (x - t k) _) in *. set (b := ratio (y - t k) _) in *. nra.
  Qed.
  (** A point between two knots lies in one of the intervals. *)
  Lemma interval x : t 0 <= x -> x < t n -> exists k, (k < n)%nat /\ t k <= x < t (S k).
  Proof.
    intros H0 Hn. induction n as [|q IH]; [lra|]. destruct (Rlt_le_dec x (t q)) as [H|H].
    - destruct IH as (k & Hk & H1); [auto|]. exists k. split; [lia|auto].
    - exists q. split; [lia|]. lra.
  Qed.
End Knots.
