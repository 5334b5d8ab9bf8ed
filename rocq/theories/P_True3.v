(** Data in the exact proportions of the truth; the one-parameter model; joint estimation with two items. *)
From Verif Require Import Base BaseFacts RBase RFacts M_Data M_Logit M_Lik M_Est M_Opt M_Jml P_Logit P_Logit2 P_Logit3 P_Est1 P_Est2 P_Opt3 P_Max1 P_Item1 S_Suff S_Scoreq S_Max S_Logit S_Lik S_Est S_Item S_Ex S_True P_True1 P_True2 T_Item T_Scoreq T_Ex.
Import List.
Local Open Scope R_scope.

(** ** Exact proportions *)
Lemma pick_row cats : forall seen row (g : list cell -> R), length seen = length cats -> In row (possible_rows cats seen) -> over (possible_rows cats seen) (fun x => if list_eq_dec cell_dec row x then g x else 0) = g row.
Proof.
  induction cats as [|K cats IH]; intros [|b seen] row g HL Hin; try discriminate; [destruct Hin as [<-|[]]; unfold over; cbn; ring|]. assert (L' : length seen = length cats) by (cbn [length] in HL; lia). cbn [possible_rows] in Hin |- *.
  assert (Z : forall l, over l (fun _ : list cell => 0) = 0) by (intro l; unfold over; induction l as [|x l IHl]; cbn [map rsum]; [reflexivity|rewrite IHl; ring]).
  assert (D : forall c c' r r' y, (if list_eq_dec cell_dec (c :: r) (c' :: r') then y else 0) = if cell_dec c c' then if list_eq_dec cell_dec r r' then y else 0 else 0).
  { intros. destruct (list_eq_dec cell_dec (c :: r) (c' :: r')) as [E|N]; destruct (cell_dec c c') as [E1|N1]; try destruct (list_eq_dec cell_dec r r') as [E2|N2]; congruence. }
  destruct b.
  - apply in_flat_map in Hin as (k & Hk & Hin). apply in_seq in Hk. apply in_map_iff in Hin as (row' & <- & Hin). rewrite over_flat, over_seq. rewrite (sumn_single K k); [| lia |].
    + rewrite over_map. rewrite <- (IH seen row' (fun r => g (Some (Z.of_nat k) :: r)) L' Hin). apply over_ext. intros x _. cbv beta. rewrite D. destruct (cell_dec (Some (Z.of_nat k)) (Some (Z.of_nat k))); [reflexivity|congruence].
    + intros j _ Hj. rewrite over_map. transitivity (over (possible_rows cats seen) (fun _ => 0)); [|apply Z]. apply over_ext. intros x _. cbv beta. rewrite D. destruct (cell_dec (Some (Z.of_nat k)) (Some (Z.of_nat j))) as [E|]; [|reflexivity]. injection E as E. lia.
  - apply in_map_iff in Hin as (row' & <- & Hin). rewrite over_map. rewrite <- (IH seen row' (fun r => g (None :: r)) L' Hin). apply over_ext. intros x _. cbv beta. rewrite D. destruct (cell_dec None None); [reflexivity|congruence].
Qed.
Lemma over_times cats seen data g : length seen = length cats -> Forall (fun row => In row (possible_rows cats seen)) data -> over data g = over (possible_rows cats seen) (fun x => INR (times data x) * g x).
Proof.
  intro HL. induction data as [|row data IH]; intro HF.
  - rewrite (over_ext (possible_rows cats seen) _ (fun x => 0 * g x)) by (intros; reflexivity). rewrite over_scal. unfold over at 1. cbn. ring.
  - change (over (row :: data) g) with (g row + over data g). rewrite (IH (Forall_inv_tail HF)), <- (pick_row cats seen row g HL (Forall_inv HF)), <- over_plus. apply over_ext. intros x _. unfold times. cbn [count_occ]. destruct (list_eq_dec cell_dec row x); [rewrite S_INR|]; ring.
Qed.
Lemma mml_exact m p points weights m' p' points' weights' s data : library_model m p -> library_model m' p' -> em_cats m' = em_cats m -> rule (em_lv m) points weights -> rule (em_lv m') points' weights' -> rsum weights' = rsum weights ->
  length s = length (em_cats m) -> data <> [] -> Forall (fun row => In row (possible_rows (em_cats m) s)) data ->
  (forall row, In row (possible_rows (em_cats m) s) -> INR (times data row) = INR (length data) * (marginal_likelihood p points weights row / rsum weights)) ->
  let loss m points weights := mml_loss m points (map (fun w => Some (Fin (ln w))) weights) (Wide (length (em_cats m)) data) in
  exists x x', loss m points weights = Ok (Some (Fin x)) /\ loss m' points' weights' = Ok (Some (Fin x')) /\ x <= x' /\
    (x' = x <-> forall row, In row (possible_rows (em_cats m) s) -> marginal_likelihood p' points' weights' row = marginal_likelihood p points weights row).
Proof.
  intros Hm Hm' EC HR HR' EW HS HD HF HT loss. set (W := rsum weights) in *. pose proof (rule_total _ _ _ HR) as HW. fold W in HW. assert (LD : legal_data (em_cats m) data) by (apply Forall_forall; intros row Hr; rewrite Forall_forall in HF; apply (rows_legal _ s); auto).
  do 2 eexists. split; [apply mml_row_value; eauto|]. split; [apply mml_row_value; eauto; now rewrite EC|].
  set (M := marginal_likelihood p points weights) in *. set (M' := marginal_likelihood p' points' weights') in *. assert (HN : 0 < INR (length data)) by (apply lt_0_INR; destruct data; [congruence|cbn; lia]).
  assert (QT : over (possible_rows (em_cats m) s) (fun row => M row / W) = 1) by (now apply share_total). assert (QT' : over (possible_rows (em_cats m) s) (fun row => M' row / W) = 1) by (rewrite <- EW, <- EC; apply share_total; auto; now rewrite EC).
  assert (PM : forall row, In row (possible_rows (em_cats m) s) -> 0 < M row) by (intros row Hrow; apply (marginal_positive m); auto; now apply (rows_legal _ s)). assert (PM' : forall row, In row (possible_rows (em_cats m) s) -> 0 < M' row) by (intros row Hrow; apply (marginal_positive m'); auto; rewrite EC; now apply (rows_legal _ s)).
  assert (V : forall b : list cell -> R, (forall row, In row (possible_rows (em_cats m) s) -> 0 < b row) -> rsum (mapi (fun _ row => - ln (b row)) data) = - (INR (length data) * (over (possible_rows (em_cats m) s) (fun row => M row / W * ln (b row / W)) + ln W))).
  { intros b Hb. rewrite (rsum_mapi []). transitivity (over data (fun row => - ln (b row))); [unfold over; rewrite rsum_nth, map_length; apply sumn_ext; intros r Hr; rewrite (nth_indep _ 0 (- ln (b []))) by (now rewrite map_length); now rewrite (map_nth (fun row => - ln (b row)))|].
    rewrite (over_times _ s data _ HS HF). replace (over (possible_rows (em_cats m) s) (fun row => M row / W * ln (b row / W)) + ln W) with (over (possible_rows (em_cats m) s) (fun row => M row / W * ln (b row / W)) + ln W * over (possible_rows (em_cats m) s) (fun row => M row / W)) by (rewrite QT; ring).
    rewrite <- over_scal, <- over_plus. rewrite <- Ropp_mult_distr_l_reverse, <- over_scal. apply over_ext. intros row Hrow. rewrite (HT row Hrow). specialize (Hb row Hrow). replace (ln (b row / W)) with (ln (b row) - ln W) by (unfold Rdiv; rewrite ln_mult, ln_Rinv by (auto using Rinv_0_lt_compat); ring). ring. }
  destruct (gibbs_list (possible_rows (em_cats m) s) (fun row => M row / W) (fun row => M' row / W)) as [G1 G2]; [intros; apply Rdiv_lt_0_compat; auto|intros; apply Rdiv_lt_0_compat; auto|exact QT|exact QT'|].
  rewrite (V M PM), (V M' PM'). split.
  - apply Ropp_le_contravar, Rmult_le_compat_l; lra.
  - split.
    + intros E row Hrow. apply (Rmult_eq_reg_r (/ W)); [|apply Rinv_neq_0_compat; lra]. refine (proj1 G2 _ row Hrow). assert (E2 : over (possible_rows (em_cats m) s) (fun row => M row / W * ln (M' row / W)) + ln W = over (possible_rows (em_cats m) s) (fun row => M row / W * ln (M row / W)) + ln W) by (apply (Rmult_eq_reg_l (INR (length data))); lra). lra.
    + intro E. do 3 f_equal. apply G2. intros row Hrow. now rewrite E.
Qed.

(** ** One-parameter model *)
Lemma opl_rows nanl items b b' points weights s : length b = items -> length b' = items -> (0 < items)%nat -> rule 1 points weights -> length s = items ->
  ((forall row, In row (possible_rows (repeat 2%nat items) s) -> marginal_likelihood (f_p (opl_family nanl items) b') points weights row = marginal_likelihood (f_p (opl_family nanl items) b) points weights row) <->
   forall i, nth i s false = true -> nth i b' 0 = nth i b 0).
Proof.
  intros Lb Lb' HI HR HS. set (m := of_sub (opl_sub nanl (opl_of items b))). set (m' := of_sub (opl_sub nanl (opl_of items b'))). pose proof HR as (_ & L1 & _ & L3).
  assert (Hm : library_model m (opl_p (opl_of items b))) by (constructor; [exact Lb|exact HI]). assert (Hm' : library_model m' (opl_p (opl_of items b'))) by (constructor; [exact Lb'|exact HI]).
  split.
  - intros H i Hi. assert (LI : (i < items)%nat) by (destruct (Nat.lt_ge_cases i items); [assumption|]; rewrite nth_overflow in Hi by lia; discriminate). assert (HK : (1 < nth i (repeat 2%nat items) O)%nat) by (rewrite (nth_error_nth _ _ O (nth_error_repeat_lt 2%nat items i LI)); lia).
    pose proof (marginal_item m _ points weights s i 1 Hm HR ltac:(cbn; now rewrite repeat_length) Hi HK) as E. pose proof (marginal_item m' _ points weights s i 1 Hm' HR ltac:(cbn; now rewrite repeat_length) Hi HK) as E'.
    assert (Q : sumn (length points) (fun q => nth q weights 0 * opl_p (opl_of items b') (nth q points []) i 1) = sumn (length points) (fun q => nth q weights 0 * opl_p (opl_of items b) (nth q points []) i 1)).
    { rewrite <- E, <- E'. apply over_ext. intros row Hrow. destruct (chose i 1 row); [|reflexivity]. now apply H. }
    assert (HP : (0 < length points)%nat) by (pose proof (rule_points _ _ _ HR); destruct points; [congruence|cbn; lia]). assert (HW : forall q, (q < length points)%nat -> 0 < nth q weights 0) by (intros q Hq; rewrite Forall_forall in L3; apply L3, nth_In; lia).
    assert (M : forall c c', nth i c 0 < nth i c' 0 -> sumn (length points) (fun q => nth q weights 0 * opl_p (opl_of items c) (nth q points []) i 1) < sumn (length points) (fun q => nth q weights 0 * opl_p (opl_of items c') (nth q points []) i 1)).
    { intros c c' Hc. assert (T : forall q, (q < length points)%nat -> nth q weights 0 * opl_p (opl_of items c) (nth q points []) i 1 < nth q weights 0 * opl_p (opl_of items c') (nth q points []) i 1).
      { intros q Hq. apply Rmult_lt_compat_l; [now apply HW|]. unfold opl_p. cbn [Nat.eqb opl_of opl_b]. apply logistic_incr. lra. }
      apply sumn_lt; [intros q Hq; left; now apply T|]. exists 0%nat. split; [exact HP|now apply T]. }
    destruct (Rtotal_order (nth i b' 0) (nth i b 0)) as [X|[X|X]]; [apply M in X; lra|exact X|apply M in X; lra].
  - intros H row Hrow. rewrite !marginal_sumn by exact L1. apply sumn_ext. intros q _. f_equal. unfold likelihood. f_equal. apply nth_error_ext. intro i. rewrite !nth_error_mapi. destruct (nth_error row i) as [c|] eqn:Ec; [|reflexivity]. cbn [option_map]. f_equal. destruct (answer c) as [k|] eqn:Ea; [|reflexivity].
    destruct (rows_seen (repeat 2%nat items) s row i k Hrow ltac:(now rewrite repeat_length)) as [SE _]; [now rewrite (nth_error_nth _ _ None Ec)|].
    unfold f_p, opl_family, opl_p. cbn [opl_of opl_b]. rewrite (H i SE). reflexivity.
Qed.
