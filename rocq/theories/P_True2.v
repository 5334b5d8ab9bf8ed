(** Average losses under the truth. *)
From Verif Require Import Base BaseFacts RBase RFacts M_Data M_Logit M_Lik M_Est M_Opt M_Jml P_Logit P_Logit2 P_Logit3 P_Est1 P_Est2 P_Opt3 P_Max1 S_Logit S_Lik S_Est S_Item S_True P_True1 T_Est.
Import List.
Local Open Scope R_scope.

Lemma rule_points lv points weights : rule lv points weights -> points <> [].
Proof. now intros (L0 & _). Qed.
Lemma mml_row_value m p points weights data : library_model m p -> rule (em_lv m) points weights -> legal_data (em_cats m) data ->
  mml_loss m points (map (fun w => Some (Fin (ln w))) weights) (Wide (length (em_cats m)) data) = Ok (Some (Fin (rsum (mapi (fun _ row => - ln (marginal_likelihood p points weights row)) data)))).
Proof.
  intros Hm HR HD. pose proof (rule_points _ _ _ HR) as HP. destruct HR as (_ & L1 & L2 & L3). etransitivity; [exact (C30_marginal_likelihood m p points weights data Hm HP L1 L2 L3 HD)|]. do 3 f_equal. unfold mapi. generalize 0%nat. induction data as [|row data IH]; intro n; [cbn; ring|]. cbn [map rsum mapi_from]. rewrite <- (IH (Forall_inv_tail HD) (S n)). unfold marginal_likelihood. ring.
Qed.
Lemma rsum_mapi {A} (d : A) (g : nat -> A -> R) l : rsum (mapi g l) = sumn (length l) (fun r => g r (nth r l d)).
Proof.
  apply rsum_index; [apply mapi_length|]. intros r Hr. rewrite nth_error_mapi. rewrite (nth_error_nth_lt l r d) by exact Hr. reflexivity.
Qed.
Lemma jml_row_value m p thetas data : library_model m p -> length thetas = length data -> Forall (fun t => length t = em_lv m) thetas -> legal_data (em_cats m) data ->
  jml_loss m (Wide (length (em_cats m)) data) thetas = Ok (Some (Fin (rsum (mapi (fun r row => - ln (likelihood p (nth r thetas []) row)) data)))).
Proof.
  intros Hm HL HT HD. etransitivity; [exact (scoring_loss_value m p None thetas data Hm HT HL HD)|]. do 3 f_equal. rewrite (rsum_mapi []). rewrite <- (Rmult_1_l (sumn _ _)), <- Ropp_mult_distr_l_reverse, <- sumn_scal. apply sumn_ext. intros r _. unfold row_target, prior_term. ring.
Qed.
Lemma average_value cats seen q loss g : (forall data, In data (possible_data cats seen) -> loss data = Ok (Some (Fin (rsum (mapi g data))))) ->
  always_finite cats seen loss /\ average_loss cats seen q loss = over (possible_data cats seen) (fun data => table_probability q data * rsum (mapi g data)).
Proof.
  intro H. split; [intros data Hd; eexists; now apply H|]. unfold average_loss. change (over (possible_data cats seen) (fun data => table_probability q data * loss_value (loss data)) = over (possible_data cats seen) (fun data => table_probability q data * rsum (mapi g data))). apply over_ext. intros data Hd. now rewrite H.
Qed.

Lemma rows_seen cats : forall seen row i k, In row (possible_rows cats seen) -> length seen = length cats -> answer (nth i row None) = Some k -> nth i seen false = true /\ (k < nth i cats O)%nat.
Proof.
  induction cats as [|K cats IH]; intros [|b seen] row i k Hin HL Ha; try discriminate; [destruct Hin as [<-|[]]; destruct i; discriminate|]. cbn [possible_rows] in Hin. destruct b.
  - apply in_flat_map in Hin as (k0 & Hk & Hin). apply in_seq in Hk. apply in_map_iff in Hin as (row' & <- & Hin). destruct i as [|i]; cbn [nth] in *; [rewrite answer_of_nat in Ha; injection Ha as <-; split; [reflexivity|lia]|apply (IH seen row' i k); auto].
  - apply in_map_iff in Hin as (row' & <- & Hin). destruct i as [|i]; cbn [nth] in *; [discriminate|]. apply (IH seen row' i k); auto.
Qed.
Lemma mml_average m p points weights m' p' points' weights' seen : library_model m p -> library_model m' p' -> em_cats m' = em_cats m -> rule (em_lv m) points weights -> rule (em_lv m') points' weights' -> rsum weights' = rsum weights -> Forall (fun s => length s = length (em_cats m)) seen ->
  let loss m points weights data := mml_loss m points (map (fun w => Some (Fin (ln w))) weights) (Wide (length (em_cats m)) data) in
  let average := average_loss (em_cats m) seen (fun _ row => marginal_likelihood p points weights row / rsum weights) in
  always_finite (em_cats m) seen (loss m' points' weights') /\ average (loss m points weights) <= average (loss m' points' weights') /\
  (average (loss m' points' weights') = average (loss m points weights) <->
   forall s row, In s seen -> In row (possible_rows (em_cats m) s) -> marginal_likelihood p' points' weights' row = marginal_likelihood p points weights row).
Proof.
  intros Hm Hm' EC HR HR' EW HS loss average. set (W := rsum weights) in *. pose proof (rule_total _ _ _ HR) as HW. fold W in HW. set (q := fun (_ : nat) row => marginal_likelihood p points weights row / W).
  destruct (average_value (em_cats m) seen q (loss m points weights) (fun _ row => - ln (marginal_likelihood p points weights row))) as [_ A1].
  { intros data Hd. apply mml_row_value; auto. now apply (tables_legal _ seen). }
  destruct (average_value (em_cats m) seen q (loss m' points' weights') (fun _ row => - ln (marginal_likelihood p' points' weights' row))) as [F2 A2].
  { intros data Hd. apply mml_row_value; auto. rewrite EC. now apply (tables_legal _ seen). }
  assert (LS : forall r, (r < length seen)%nat -> length (nth r seen []) = length (em_cats m)) by (intros r Hr; rewrite Forall_forall in HS; now apply HS, nth_In).
  assert (QT : forall r, (r < length seen)%nat -> over (possible_rows (em_cats m) (nth r seen [])) (q r) = 1) by (intros r Hr; apply share_total; auto).
  assert (SH : forall M : list cell -> R, (forall r row, (r < length seen)%nat -> In row (possible_rows (em_cats m) (nth r seen [])) -> 0 < M row) ->
    over (possible_data (em_cats m) seen) (fun data => table_probability q data * rsum (mapi (fun _ row => - ln (M row)) data)) =
    over (possible_data (em_cats m) seen) (fun data => table_probability q data * rsum (mapi (fun _ row => - ln (M row / W)) data)) - INR (length seen) * ln W).
  { intros M HM. rewrite (proj2 (average_additive (em_cats m) seen q _ QT)), (proj2 (average_additive (em_cats m) seen q (fun _ row => - ln (M row / W)) QT)). rewrite <- sumn_const, <- sumn_minus. apply sumn_ext. intros r Hr.
    rewrite (over_ext _ _ (fun row => q r row * - ln (M row / W) + - ln W * q r row)); [rewrite over_plus, over_scal, QT by exact Hr; ring|]. intros row Hrow. specialize (HM r row Hr Hrow). unfold Rdiv. rewrite ln_mult, ln_Rinv by (auto using Rinv_0_lt_compat). ring. }
  assert (PM : forall r row, (r < length seen)%nat -> In row (possible_rows (em_cats m) (nth r seen [])) -> 0 < marginal_likelihood p points weights row /\ 0 < marginal_likelihood p' points' weights' row).
  { intros r row Hr Hrow. pose proof (rows_legal _ _ row (LS r Hr) Hrow). split; [now apply (marginal_positive m)|]. apply (marginal_positive m'); auto. now rewrite EC. }
  destruct (average_best (em_cats m) seen q (fun _ row => marginal_likelihood p' points' weights' row / W)) as [B1 B2].
  { intros r row Hr Hrow. destruct (PM r row Hr Hrow). split; apply Rdiv_lt_0_compat; assumption. }
  { intros r Hr. split; [now apply QT|]. rewrite <- EW, <- EC. apply share_total; auto. rewrite EC; auto. }
  split; [exact F2|]. unfold average. fold q. rewrite A1, A2. rewrite (SH (marginal_likelihood p points weights)) by (intros; now apply (PM r)). rewrite (SH (marginal_likelihood p' points' weights')) by (intros; now apply (PM r)).
  split; [apply Rplus_le_compat_r; exact B1|]. split.
  - intros H s row Hs Hrow. apply (In_nth _ _ []) in Hs as (r & Hr & <-). assert (E : marginal_likelihood p' points' weights' row / W = marginal_likelihood p points weights row / W) by (refine (proj1 B2 _ r row Hr Hrow); apply Rplus_eq_reg_r in H; exact H). apply (Rmult_eq_reg_r (/ W)); [exact E|apply Rinv_neq_0_compat; lra].
  - intro H. f_equal. apply B2. intros r row Hr Hrow. unfold q. f_equal. apply (H (nth r seen [])); [now apply nth_In|exact Hrow].
Qed.
Lemma jml_average m p thetas m' p' thetas' seen : library_model m p -> library_model m' p' -> em_cats m' = em_cats m -> length thetas = length seen -> length thetas' = length seen ->
  Forall (fun t => length t = em_lv m) thetas -> Forall (fun t => length t = em_lv m') thetas' -> Forall (fun s => length s = length (em_cats m)) seen ->
  let loss m thetas data := jml_loss m (Wide (length (em_cats m)) data) thetas in
  let average := average_loss (em_cats m) seen (fun r => likelihood p (nth r thetas [])) in
  always_finite (em_cats m) seen (loss m' thetas') /\ average (loss m thetas) <= average (loss m' thetas') /\
  (average (loss m' thetas') = average (loss m thetas) <->
   forall r i k, (r < length seen)%nat -> nth i (nth r seen []) false = true -> (k < nth i (em_cats m) O)%nat -> p' (nth r thetas' []) i k = p (nth r thetas []) i k).
Proof.
  intros Hm Hm' EC HL HL' HT HT' HS loss average.
  destruct (average_value (em_cats m) seen (fun r => likelihood p (nth r thetas [])) (loss m thetas) (fun r row => - ln (likelihood p (nth r thetas []) row))) as [_ A1].
  { intros data Hd. apply jml_row_value; auto; [destruct (tables_in _ _ _ Hd); lia|]. now apply (tables_legal _ seen). }
  destruct (average_value (em_cats m) seen (fun r => likelihood p (nth r thetas [])) (loss m' thetas') (fun r row => - ln (likelihood p' (nth r thetas' []) row))) as [F2 A2].
  { intros data Hd. apply jml_row_value; auto; [destruct (tables_in _ _ _ Hd); lia|]. rewrite EC. now apply (tables_legal _ seen). }
  assert (LS : forall r, (r < length seen)%nat -> length (nth r seen []) = length (em_cats m)) by (intros r Hr; rewrite Forall_forall in HS; now apply HS, nth_In).
  assert (LT : forall r, (r < length seen)%nat -> length (nth r thetas []) = em_lv m /\ length (nth r thetas' []) = em_lv m') by (intros r Hr; rewrite Forall_forall in HT, HT'; split; [apply HT|apply HT']; apply nth_In; lia).
  destruct (average_best (em_cats m) seen (fun r => likelihood p (nth r thetas [])) (fun r => likelihood p' (nth r thetas' []))) as [B1 B2].
  { intros r row Hr Hrow. pose proof (rows_legal _ _ row (LS r Hr) Hrow) as HLr. destruct (LT r Hr). split; [now apply (library_likelihood m p)|]. apply (library_likelihood m' p'); auto. now rewrite EC. }
  { intros r Hr. split; [apply likelihood_total; auto|]. rewrite <- EC. apply likelihood_total; auto. rewrite EC; auto. }
  split; [exact F2|]. unfold average. rewrite A1, A2. split; [exact B1|]. rewrite B2. split.
  - intros H r i k Hr Hs Hk. assert (Hi : (i < length (em_cats m))%nat) by (destruct (Nat.lt_ge_cases i (length (em_cats m))) as [|G]; [assumption|]; rewrite nth_overflow in Hk by exact G; lia).
    apply (rows_equal (em_cats m) (nth r seen []) (p (nth r thetas [])) (p' (nth r thetas' [])) (LS r Hr)); auto; [intros; now apply library_total|intros j Hj; rewrite <- EC; apply library_total; [assumption|now rewrite EC]|]. intros row Hrow. exact (H r row Hr Hrow).
  - intros H r row Hr Hrow. unfold likelihood. f_equal. pose proof (rows_legal _ _ row (LS r Hr) Hrow) as [L1 L2].
    apply nth_error_ext. intro i. rewrite !nth_error_mapi. destruct (nth_error row i) as [c|] eqn:Ec; [|reflexivity]. cbn [option_map]. f_equal. destruct (answer c) as [k|] eqn:Ea; [|reflexivity].
    destruct (rows_seen (em_cats m) (nth r seen []) row i k Hrow (LS r Hr)) as [S1 S2]; [rewrite (nth_error_nth _ _ None Ec); exact Ea|]. now apply H.
Qed.

(** ** The item margin *)
Definition chose (i k : nat) (row : list cell) : bool := match answer (nth i row None) with Some j => (j =? k)%nat | None => false end.
Lemma rows_item cats : forall seen f i k, length seen = length cats -> (forall i, (i < length cats)%nat -> sumn (nth i cats O) (f i) = 1) -> nth i seen false = true -> (k < nth i cats O)%nat ->
  over (possible_rows cats seen) (fun row => if chose i k row then row_product f row else 0) = f i k.
Proof.
  induction cats as [|K cats IH]; intros [|b seen] f i k HL HF Hs Hk; try discriminate; [destruct i; discriminate|]. assert (L' : length seen = length cats) by (cbn [length] in HL; lia).
  assert (F' : forall i, (i < length cats)%nat -> sumn (nth i cats O) (f (S i)) = 1) by (intros j Hj; apply (HF (S j)); cbn [length]; lia). assert (S0 : sumn K (f 0%nat) = 1) by (exact (HF 0%nat ltac:(cbn; lia))).
  assert (T' := rows_total cats seen (fun i => f (S i)) L' F'). cbn [possible_rows]. destruct i as [|i]; cbn [nth] in Hs, Hk.
  - rewrite Hs. rewrite over_flat, over_seq. rewrite (sumn_ext _ _ (fun k0 => if (k0 =? k)%nat then f 0%nat k else 0)); [rewrite (sumn_single K k) by (auto; intros j _ Hj; now rewrite (proj2 (Nat.eqb_neq j k) Hj)); now rewrite Nat.eqb_refl|].
    intros k0 _. rewrite over_map. unfold chose. cbn [nth]. destruct (Nat.eqb_spec k0 k) as [->|N].
    + rewrite (over_ext _ _ (fun row => f 0%nat k * row_product (fun i => f (S i)) row)) by (intros row _; rewrite answer_of_nat, Nat.eqb_refl, row_product_cons, answer_of_nat; reflexivity). rewrite over_scal, T'. ring.
    + rewrite (over_ext _ _ (fun row => 0 * row_product (fun i => f (S i)) row)) by (intros row _; rewrite answer_of_nat, (proj2 (Nat.eqb_neq k0 k) N); ring). rewrite over_scal. ring.
  - specialize (IH seen (fun i => f (S i)) i k L' F' Hs Hk). cbv beta in IH. assert (C : forall c row, chose (S i) k (c :: row) = chose i k row) by reflexivity. destruct b.
    + rewrite over_flat, over_seq. rewrite (sumn_ext _ _ (fun k0 => f (S i) k * f 0%nat k0)); [rewrite sumn_scal, S0; ring|]. intros k0 _. rewrite over_map.
      rewrite (over_ext _ _ (fun row => f 0%nat k0 * (if chose i k row then row_product (fun i => f (S i)) row else 0))) by (intros row _; rewrite C, row_product_cons, answer_of_nat; destruct (chose i k row); ring). rewrite over_scal, IH. ring.
    + rewrite over_map. rewrite <- IH. apply over_ext. intros row _. rewrite C, row_product_cons. cbn [answer]. destruct (chose i k row); ring.
Qed.
Lemma marginal_item m p points weights s i k : library_model m p -> rule (em_lv m) points weights -> length s = length (em_cats m) -> nth i s false = true -> (k < nth i (em_cats m) O)%nat ->
  over (possible_rows (em_cats m) s) (fun row => if chose i k row then marginal_likelihood p points weights row else 0) = sumn (length points) (fun q => nth q weights 0 * p (nth q points []) i k).
Proof.
  intros Hm (_ & L1 & _ & _) HL Hs Hk. rewrite (over_ext _ _ (fun row => sumn (length points) (fun q => nth q weights 0 * (if chose i k row then likelihood p (nth q points []) row else 0)))).
  - rewrite over_sumn. apply sumn_ext. intros q _. rewrite over_scal. f_equal. exact (rows_item (em_cats m) s (p (nth q points [])) i k HL (library_total m p Hm _) Hs Hk).
  - intros row _. rewrite marginal_sumn by exact L1. destruct (chose i k row); [reflexivity|]. rewrite (sumn_ext _ _ (fun _ => 0)) by (intros; ring). rewrite sumn_const. ring.
Qed.
