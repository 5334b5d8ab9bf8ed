(** Merging neighbouring answers: sums over groups, and what is lost. *)
From Verif Require Import Base BaseFacts RBase RFacts M_Data M_Logit S_Logit M_Lik M_Est S_Est S_Stat S_True S_Pop S_Info P_Logit P_Logit2 P_Logit3 P_Logit4 P_Max1 P_Est2 P_True1 P_Opt3 P_Info3 P_Info4 P_Row S_Rao P_Rao S_Merge.
Import List.
Local Open Scope R_scope.

Lemma cuts_up (c : nat -> nat) n : (forall j, (j < n)%nat -> (c j < c (S j))%nat) -> forall a b, (a < b)%nat -> (b <= n)%nat -> (c a < c b)%nat.
Proof.
  intros H a b. revert a. induction b as [|b IH]; intros a Ha Hb; [lia|]. specialize (H b ltac:(lia)) as Hb'. destruct (Nat.eq_dec a b) as [->|Hn]; [exact Hb'|]. specialize (IH a ltac:(lia) ltac:(lia)). lia.
Qed.
Lemma cuts_le (c : nat -> nat) n : (forall j, (j < n)%nat -> (c j < c (S j))%nat) -> forall a b, (a <= b)%nat -> (b <= n)%nat -> (c a <= c b)%nat.
Proof. intros H a b Ha Hb. destruct (Nat.eq_dec a b) as [->|Hn]; [lia|]. pose proof (cuts_up c n H a b ltac:(lia) Hb). lia. Qed.
Lemma sum_groups (c : nat -> nat) n (f : nat -> R) : c 0%nat = 0%nat -> (forall j, (j < n)%nat -> (c j < c (S j))%nat) ->
  sumn (c n) f = sumn n (fun j => sumn (c (S j) - c j) (fun q => f (c j + q)%nat)).
Proof.
  intros H0. induction n as [|n IH]; intro H; [now rewrite H0|]. cbn [sumn]. rewrite <- IH by (intros; apply H; lia). specialize (H n ltac:(lia)).
  replace (c (S n)) with (c n + (c (S n) - c n))%nat at 1 by lia. apply RFacts.sumn_split.
Qed.
Lemma merged_answer_is K' (c : nat -> nat) j k : (forall j, (j < K')%nat -> (c j < c (S j))%nat) -> (j < K')%nat -> (c j <= k < c (S j))%nat -> merged_answer K' c k = j.
Proof.
  intros H Hj Hk. unfold merged_answer. replace (K' - 1)%nat with (j + (K' - 1 - j))%nat by lia. rewrite seq_app, filter_app, app_length.
  assert (A : filter (fun q => (c q <=? k)%nat) (seq 1 j) = seq 1 j).
  { apply forallb_filter_id || idtac. assert (F : forall l, (forall q, In q l -> (c q <= k)%nat) -> filter (fun q => (c q <=? k)%nat) l = l).
    { induction l as [|x l IH]; intro F; [reflexivity|]. cbn [filter]. rewrite (proj2 (Nat.leb_le _ _) (F x (or_introl eq_refl))), IH; [reflexivity|intros; apply F; now right]. }
    apply F. intros q Hq. apply in_seq in Hq. pose proof (cuts_le c K' H q j ltac:(lia) ltac:(lia)). lia. }
  assert (B : forall l, (forall q, In q l -> (k < c q)%nat) -> filter (fun q => (c q <=? k)%nat) l = []).
  { induction l as [|x l IH]; intro F; [reflexivity|]. cbn [filter]. rewrite (proj2 (Nat.leb_gt _ _) (F x (or_introl eq_refl))), IH; [reflexivity|intros; apply F; now right]. }
  rewrite A, B, seq_length; [cbn; lia|]. intros q Hq. apply in_seq in Hq. pose proof (cuts_le c K' H (S j) q ltac:(lia) ltac:(lia)). lia.
Qed.
Lemma telescope_from (g : nat -> R) a n : sumn n (fun q => g (a + q)%nat - g (S (a + q))) = g a - g (a + n)%nat.
Proof. induction n as [|n IH]; cbn [sumn]; [rewrite Nat.add_0_r; ring|]. rewrite IH. replace (a + S n)%nat with (S (a + n)) by lia. ring. Qed.

(** The square of a sum over its weight is at most the sum of the squares over their weights. *)
Lemma two_terms x y p q : 0 < p -> 0 < q -> (x + y) ^ 2 / (p + q) <= x ^ 2 / p + y ^ 2 / q /\ (x / p <> y / q -> (x + y) ^ 2 / (p + q) < x ^ 2 / p + y ^ 2 / q).
Proof.
  intros Hp Hq. assert (E : x ^ 2 / p + y ^ 2 / q - (x + y) ^ 2 / (p + q) = (x / p - y / q) ^ 2 * (p * q / (p + q))) by (field; repeat split; lra).
  assert (W : 0 < p * q / (p + q)) by (apply Rdiv_lt_0_compat; [now apply Rmult_lt_0_compat|lra]). split.
  - assert (0 <= (x / p - y / q) ^ 2) by apply pow2_ge_0. nra.
  - intro Hn. assert (0 < (x / p - y / q) ^ 2); [|nra]. assert (x / p - y / q <> 0) by lra. replace ((x / p - y / q) ^ 2) with (Rsqr (x / p - y / q)) by (unfold Rsqr; ring). now apply Rlt_0_sqr.
Qed.
Lemma group_loss (x p : nat -> R) n : (forall q, (q <= n)%nat -> 0 < p q) ->
  sumn (S n) x ^ 2 / sumn (S n) p <= sumn (S n) (fun q => x q ^ 2 / p q).
Proof.
  induction n as [|n IH]; intro Hp.
  - cbn [sumn]. rewrite !Rplus_0_l. lra.
  - cbn [sumn] in *. specialize (IH ltac:(intros; apply Hp; lia)). set (A := sumn n x + x n) in *. set (B := sumn n p + p n) in *.
    assert (PB : 0 < B). { unfold B. assert (0 <= sumn n p) by (apply sumn_nonneg; intros q Hq; apply Rlt_le, Hp; lia). pose proof (Hp n ltac:(lia)). lra. }
    destruct (two_terms A (x (S n)) B (p (S n)) PB (Hp (S n) ltac:(lia))) as [T _]. lra.
Qed.
(** Strictly, when the ratios increase. *)
Lemma ratio_below (x p : nat -> R) n : (forall q, (q <= S n)%nat -> 0 < p q) -> (forall q, (q <= n)%nat -> x q / p q < x (S q) / p (S q)) -> sumn (S n) x / sumn (S n) p < x (S n) / p (S n).
Proof.
  induction n as [|n IH]; intros Hp Hr.
  - cbn [sumn]. rewrite !Rplus_0_l. now apply Hr.
  - assert (I := IH ltac:(intros; apply Hp; lia) ltac:(intros; apply Hr; lia)). pose proof (Hr (S n) ltac:(lia)) as H1. cbn [sumn] in *. set (A := sumn n x + x n) in *. set (B := sumn n p + p n) in *.
    assert (PB : 0 < B). { unfold B. assert (0 <= sumn n p) by (apply sumn_nonneg; intros q Hq; apply Rlt_le, Hp; lia). pose proof (Hp n ltac:(lia)). lra. }
    pose proof (Hp (S n) ltac:(lia)) as Hn. eapply Rlt_trans; [|exact H1].
    apply Rmult_lt_reg_r with (B + p (S n)); [lra|]. unfold Rdiv at 1. rewrite Rmult_assoc, Rinv_l, Rmult_1_r by lra.
    assert (A < x (S n) / p (S n) * B). { apply (Rmult_lt_compat_r B) in I; [|exact PB]. unfold Rdiv at 1 in I. rewrite Rmult_assoc, Rinv_l, Rmult_1_r in I by lra. exact I. }
    assert (E : x (S n) = x (S n) / p (S n) * p (S n)) by (field; lra). lra.
Qed.
Lemma group_loss_strict (x p : nat -> R) n : (forall q, (q <= S n)%nat -> 0 < p q) -> (forall q, (q <= n)%nat -> x q / p q < x (S q) / p (S q)) ->
  sumn (S (S n)) x ^ 2 / sumn (S (S n)) p < sumn (S (S n)) (fun q => x q ^ 2 / p q).
Proof.
  intros Hp Hr. pose proof (group_loss x p n ltac:(intros; apply Hp; lia)) as G. pose proof (ratio_below x p n Hp Hr) as Rb.
  change (sumn (S (S n)) x) with (sumn (S n) x + x (S n)). change (sumn (S (S n)) p) with (sumn (S n) p + p (S n)). change (sumn (S (S n)) (fun q => x q ^ 2 / p q)) with (sumn (S n) (fun q => x q ^ 2 / p q) + x (S n) ^ 2 / p (S n)).
  assert (PB : 0 < sumn (S n) p). { cbn [sumn]. assert (0 <= sumn n p) by (apply sumn_nonneg; intros q Hq; apply Rlt_le, Hp; lia). pose proof (Hp n ltac:(lia)). lra. }
  destruct (two_terms (sumn (S n) x) (x (S n)) (sumn (S n) p) (p (S n)) PB (Hp (S n) ltac:(lia))) as [_ T]. specialize (T ltac:(lra)). lra.
Qed.

(** Answers of a merged item. *)
Lemma merged_sums K K' (c : nat -> nat) (f f' H : nat -> R) : c 0%nat = 0%nat -> c K' = K -> (forall j, (j < K')%nat -> (c j < c (S j))%nat) ->
  (forall j, (j < K')%nat -> f' j = sumn (c (S j) - c j) (fun q => f (c j + q)%nat)) ->
  sumn K (fun k => f k * H (merged_answer K' c k)) = sumn K' (fun j => f' j * H j).
Proof.
  intros H0 HK Hc Hf. rewrite <- HK, (sum_groups c K' _ H0 Hc). apply sumn_ext. intros j Hj. rewrite (Hf j Hj).
  rewrite (sumn_ext _ _ (fun q => H j * f (c j + q)%nat)).
  - rewrite sumn_scal. ring.
  - intros q Hq. rewrite (merged_answer_is K' c j) by (auto; lia). ring.
Qed.
Lemma merged_row_cons cats' c K' x row : merged_row (K' :: cats') c (x :: row) = match answer x with None => None | Some k => Some (Z.of_nat (merged_answer K' (c 0%nat) k)) end :: merged_row cats' (fun i => c (S i)) row.
Proof. unfold merged_row. rewrite mapi_cons. reflexivity. Qed.
Lemma merged_rows cats : forall cats' seen (c : nat -> nat -> nat) (f f' : nat -> nat -> R) h, length seen = length cats -> length cats' = length cats ->
  (forall i, (i < length cats)%nat -> c i 0%nat = 0%nat /\ c i (nth i cats' O) = nth i cats O /\ (forall j, (j < nth i cats' O)%nat -> (c i j < c i (S j))%nat) /\
     forall j, (j < nth i cats' O)%nat -> f' i j = sumn (c i (S j) - c i j) (fun q => f i (c i j + q)%nat)) ->
  over (possible_rows cats' seen) (fun row => row_product f' row * h row) = over (possible_rows cats seen) (fun row => row_product f row * h (merged_row cats' c row)).
Proof.
  induction cats as [|K cats IH]; intros [|K' cats'] [|b seen] c f f' h HL HL' HC; try discriminate; [reflexivity|].
  assert (I := fun h => IH cats' seen (fun i => c (S i)) (fun i => f (S i)) (fun i => f' (S i)) h ltac:(cbn [length] in HL; lia) ltac:(cbn [length] in HL'; lia) ltac:(intros i Hi; apply (HC (S i)); cbn [length]; lia)).
  destruct (HC 0%nat ltac:(cbn; lia)) as (C0 & C1 & C2 & C3). cbn [nth] in C1, C2, C3. cbn [possible_rows]. destruct b.
  - rewrite !over_flat, !over_seq.
    rewrite (sumn_ext K _ (fun k => f 0%nat k * (fun j => over (possible_rows cats' seen) (fun row => row_product (fun i => f' (S i)) row * h (Some (Z.of_nat j) :: row))) (merged_answer K' (c 0%nat) k))).
    + rewrite (merged_sums K K' (c 0%nat) (f 0%nat) (f' 0%nat) (fun j => over (possible_rows cats' seen) (fun row => row_product (fun i => f' (S i)) row * h (Some (Z.of_nat j) :: row))) C0 C1 C2 C3).
      apply sumn_ext. intros j Hj. rewrite over_map, <- over_scal. apply over_ext. intros row _. rewrite row_product_cons, answer_of_nat. ring.
    + intros k Hk. cbv beta. rewrite over_map, I, <- over_scal. apply over_ext. intros row _. rewrite row_product_cons, merged_row_cons, answer_of_nat. ring.
  - rewrite !over_map. rewrite (over_ext _ _ (fun row => row_product (fun i => f' (S i)) row * h (None :: row))) by (intros; rewrite row_product_cons; cbn [answer]; ring).
    rewrite (I (fun row => h (None :: row))). apply over_ext. intros row _. rewrite row_product_cons, merged_row_cons. cbn [answer]. ring.
Qed.

Section Merged.
  Context (m m' : poly) (c : nat -> nat -> nat) (Hwf : poly_wf m) (Hwf' : poly_wf m') (HM : merged m m' c).

  Lemma merged_cut i : (i < length (p_cats m))%nat -> (1 <= nth i (p_cats m') O <= nth i (p_cats m) O)%nat /\ forall j, (1 <= j < nth i (p_cats m') O)%nat -> (1 <= c i j < nth i (p_cats m) O)%nat.
  Proof.
    intro Hi. destruct HM as (_ & HL & H). destruct (H i Hi) as (_ & C0 & C1 & C2 & _). pose proof (cats_bounds (p_cats m') i (proj1 (proj2 Hwf')) ltac:(rewrite HL; exact Hi)) as [B _].
    split.
    - split; [exact B|]. rewrite <- C1. assert (G : forall j, (j <= nth i (p_cats m') O)%nat -> (j <= c i j)%nat); [|now apply G]. induction j as [|j IH]; intro Hj; [lia|]. specialize (IH ltac:(lia)). specialize (C2 j ltac:(lia)). lia.
    - intros j Hj. rewrite <- C1. pose proof (cuts_up (c i) _ C2 0 j ltac:(lia) ltac:(lia)). pose proof (cuts_up (c i) _ C2 j (nth i (p_cats m') O) ltac:(lia) ltac:(lia)). lia.
  Qed.
  Lemma merged_z t i j : (i < length (p_cats m))%nat -> (1 <= j < nth i (p_cats m') O)%nat -> grm_z m' t i j = grm_z m t i (c i j).
  Proof.
    intros Hi Hj. destruct HM as (EL & HL & H). destruct (H i Hi) as (HS & C0 & C1 & C2 & HB). unfold grm_z. rewrite (HB j Hj), EL. f_equal. unfold predictor. apply sumn_ext. intros d Hd. now rewrite HS.
  Qed.
  Lemma merged_g t i j : (i < length (p_cats m))%nat -> (j <= nth i (p_cats m') O)%nat -> grm_g m' t i j = grm_g m t i (c i j).
  Proof.
    intros Hi Hj. destruct HM as (EL & HL & H). destruct (H i Hi) as (HS & C0 & C1 & C2 & HB). destruct (merged_cut i Hi) as [B1 B2]. unfold grm_g, geq_probability.
    destruct (Nat.eqb_spec j 0) as [->|Nj]; [rewrite C0; reflexivity|].
    destruct (Nat.ltb_spec j (nth i (p_cats m') O)) as [Lj|Lj].
    - pose proof (B2 j ltac:(lia)). destruct (Nat.eqb_spec (c i j) 0); [lia|]. destruct (Nat.ltb_spec (c i j) (nth i (p_cats m) O)); [|lia]. f_equal. apply merged_z; [exact Hi|lia].
    - replace j with (nth i (p_cats m') O) by lia. rewrite C1. destruct (Nat.eqb_spec (nth i (p_cats m) O) 0); [lia|]. now rewrite Nat.ltb_irrefl.
  Qed.
  Lemma merged_p t i j : (i < length (p_cats m))%nat -> (j < nth i (p_cats m') O)%nat -> grm_p m' t i j = sumn (c i (S j) - c i j) (fun q => grm_p m t i (c i j + q)%nat).
  Proof.
    intros Hi Hj. destruct HM as (EL & HL & H). destruct (H i Hi) as (HS & C0 & C1 & C2 & HB). specialize (C2 j Hj). unfold grm_p. rewrite (telescope_from (grm_g m t i)), !merged_g by (auto; lia).
    replace (c i j + (c i (S j) - c i j))%nat with (c i (S j)) by lia. reflexivity.
  Qed.
  Lemma merged_ordered : ordered m -> ordered m'.
  Proof.
    intros HO i k Hi H1 H2. destruct HM as (EL & HL & H). rewrite HL in Hi. destruct (H i Hi) as (HS & C0 & C1 & C2 & HB). destruct (merged_cut i Hi) as [B1 B2].
    rewrite !HB by lia. specialize (C2 k ltac:(lia)). pose proof (B2 k ltac:(lia)) as Ba. pose proof (B2 (S k) ltac:(lia)) as Bb.
    assert (G : forall b, (c i k < b)%nat -> (b < nth i (p_cats m) O)%nat -> intercept (p_cats m) (p_b m) i b < intercept (p_cats m) (p_b m) i (c i k)).
    { induction b as [|b IH]; intros G1 G2; [lia|]. specialize (HO i b Hi ltac:(lia) ltac:(lia)). destruct (Nat.eq_dec b (c i k)) as [->|Nb]; [exact HO|]. specialize (IH ltac:(lia) ltac:(lia)). lra. }
    apply G; lia.
  Qed.

  Context (HO : ordered m) (t : list R).
  Let V (m : poly) i := sumn (nth i (p_cats m) O) (fun k => (grm_W m t i k - grm_W m t i (S k)) ^ 2 / (grm_g m t i k - grm_g m t i (S k))).
  Lemma graded_pos i k : (i < length (p_cats m))%nat -> (k < nth i (p_cats m) O)%nat -> 0 < grm_g m t i k - grm_g m t i (S k).
  Proof. intros Hi Hk. apply grm_diff_pos; [lia|exact Hk|]. intros. unfold grm_z. apply Rplus_lt_compat_l. now apply HO. Qed.
  Lemma merged_loss i : (i < length (p_cats m))%nat -> V m' i <= V m i /\ ((nth i (p_cats m') O < nth i (p_cats m) O)%nat -> V m' i < V m i).
  Proof.
    intro Hi. destruct HM as (EL & HL & H). destruct (H i Hi) as (HS & C0 & C1 & C2 & HB). destruct (merged_cut i Hi) as [B1 B2]. set (K' := nth i (p_cats m') O) in *.
    assert (E : V m i = sumn K' (fun j => sumn (c i (S j) - c i j) (fun q => (grm_W m t i (c i j + q) - grm_W m t i (S (c i j + q))) ^ 2 / (grm_g m t i (c i j + q) - grm_g m t i (S (c i j + q)))))).
    { unfold V. rewrite <- C1. apply (sum_groups (c i) K' (fun k => (grm_W m t i k - grm_W m t i (S k)) ^ 2 / (grm_g m t i k - grm_g m t i (S k))) C0 C2). }
    assert (EV : V m' i = sumn K' (fun j => sumn (c i (S j) - c i j) (fun q => grm_W m t i (c i j + q) - grm_W m t i (S (c i j + q))) ^ 2 / sumn (c i (S j) - c i j) (fun q => grm_g m t i (c i j + q) - grm_g m t i (S (c i j + q))))).
    { unfold V. fold K'. apply sumn_ext. intros j Hj. rewrite (telescope_from (grm_W m t i)), (telescope_from (grm_g m t i)). specialize (C2 j Hj). replace (c i j + (c i (S j) - c i j))%nat with (c i (S j)) by lia. unfold grm_W. rewrite !merged_g by (auto; fold K'; lia). reflexivity. }
    assert (P : forall j q, (j < K')%nat -> (c i j + q < c i (S j))%nat -> 0 < grm_g m t i (c i j + q) - grm_g m t i (S (c i j + q))).
    { intros j q Hj Hq. apply graded_pos; [exact Hi|]. rewrite <- C1. pose proof (cuts_le (c i) K' C2 (S j) K' ltac:(lia) ltac:(lia)). lia. }
    assert (L : forall j, (j < K')%nat -> sumn (c i (S j) - c i j) (fun q => grm_W m t i (c i j + q) - grm_W m t i (S (c i j + q))) ^ 2 / sumn (c i (S j) - c i j) (fun q => grm_g m t i (c i j + q) - grm_g m t i (S (c i j + q)))
       <= sumn (c i (S j) - c i j) (fun q => (grm_W m t i (c i j + q) - grm_W m t i (S (c i j + q))) ^ 2 / (grm_g m t i (c i j + q) - grm_g m t i (S (c i j + q))))).
    { intros j Hj. specialize (C2 j Hj). replace (c i (S j) - c i j)%nat with (S (c i (S j) - c i j - 1)) by lia. apply (group_loss (fun q => grm_W m t i (c i j + q) - grm_W m t i (S (c i j + q))) (fun q => grm_g m t i (c i j + q) - grm_g m t i (S (c i j + q)))). intros q Hq. apply P; lia. }
    rewrite E, EV. split; [apply sumn_le; exact L|]. intro HK.
    assert (X : exists j, (j < K')%nat /\ (S (c i j) < c i (S j))%nat).
    { assert (D : forall n, (n <= K')%nat -> (exists j, (j < n)%nat /\ (S (c i j) < c i (S j))%nat) \/ c i n = n).
      { induction n as [|n IH]; intro Hn; [right; exact C0|]. destruct IH as [(j & Hj & G)|G]; [lia|left; exists j; split; [lia|exact G]|]. specialize (C2 n ltac:(lia)). destruct (Nat.eq_dec (c i (S n)) (S n)) as [e|ne]; [now right|]. left. exists n. split; lia. }
      destruct (D K' ltac:(lia)) as [D'|D']; [exact D'|]. lia. }
    destruct X as (j & Hj & Hg). apply P_Max1.sumn_lt; [exact L|exists j; split; [exact Hj|]].
    replace (c i (S j) - c i j)%nat with (S (S (c i (S j) - c i j - 2))) by lia.
    apply (group_loss_strict (fun q => grm_W m t i (c i j + q) - grm_W m t i (S (c i j + q))) (fun q => grm_g m t i (c i j + q) - grm_g m t i (S (c i j + q)))).
    - intros q Hq. apply P; lia.
    - intros q Hq. assert (R1 : forall a, (a < nth i (p_cats m) O)%nat -> (grm_W m t i a - grm_W m t i (S a)) / (grm_g m t i a - grm_g m t i (S a)) = 1 - grm_g m t i a - grm_g m t i (S a)).
      { intros a Ha. pose proof (graded_pos i a Hi Ha). unfold grm_W. field. lra. }
      pose proof (cuts_le (c i) K' C2 (S j) K' ltac:(lia) ltac:(lia)) as CL. rewrite C1 in CL. rewrite !R1 by lia. replace (c i j + S q)%nat with (S (c i j + q)) by lia.
      pose proof (graded_pos i (c i j + q) Hi ltac:(lia)). pose proof (graded_pos i (S (c i j + q)) Hi ltac:(lia)). lra.
  Qed.
End Merged.
Lemma outer_form lv (a : nat -> R) (V : R) v : quadratic_form lv (fun d e => a d * a e * V) v = sumn lv (fun d => v d * a d) ^ 2 * V.
Proof.
  unfold quadratic_form. rewrite (sumn_ext lv _ (fun d => (sumn lv (fun e => v e * a e) * V) * (v d * a d))).
  - rewrite sumn_scal. ring.
  - intros d Hd. rewrite (sumn_ext lv _ (fun e => (v d * a d * V) * (v e * a e))) by (intros; ring). rewrite sumn_scal. ring.
Qed.
Lemma form_sum lv n (A : nat -> nat -> nat -> R) v : quadratic_form lv (fun d e => sumn n (fun i => A i d e)) v = sumn n (fun i => quadratic_form lv (A i) v).
Proof.
  unfold quadratic_form. induction n as [|n IH]; cbn [sumn].
  - rewrite (sumn_ext lv _ (fun _ => 0)); [now rewrite sumn_const, Rmult_0_r|]. intros d _. rewrite (sumn_ext lv _ (fun _ => 0)) by (intros; ring). now rewrite sumn_const, Rmult_0_r.
  - rewrite <- IH, <- sumn_plus. apply sumn_ext. intros d _. rewrite <- sumn_plus. apply sumn_ext. intros e _. ring.
Qed.
