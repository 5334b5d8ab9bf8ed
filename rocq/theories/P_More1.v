(** Weighted sum scores are near their expectation, and scores with them. *)
From Verif Require Import Base BaseFacts RBase RFacts M_Data M_Logit M_Lik M_Est M_Opt P_Logit P_Logit2 P_Logit4 P_Est1 P_Est2 P_Opt1 P_Opt2 P_Opt3 P_Opt4 P_Max1 P_Suff1 P_Suff2 P_Scoreq S_Logit S_Lik S_Est S_Item S_Opt S_Suff S_Scoreq S_True S_Cons S_More P_True1 P_True2 P_True3 P_Cons1 P_Cons2.
Import List.
Local Open Scope R_scope.

(** ** Concave functions *)
Lemma concave_peak (h h' : R -> R) a b : a < b -> (forall x, derivable_pt_lim h x (h' x)) -> (forall x y, h y <= h x + h' x * (y - x)) -> 0 < h' a -> h' b < 0 ->
  (exists x, forall y, h y <= h x) /\ forall x, (forall y, h y <= h x) -> a <= x <= b.
Proof.
  intros Hab HD HC Ha Hb. split.
  - destruct (continuity_ab_maj h a b ltac:(lra)) as (x & Hx & _). { intros c _. apply derivable_continuous_pt. exists (h' c). apply HD. }
    exists x. intro y. destruct (Rlt_le_dec y a) as [L|L]; [|destruct (Rlt_le_dec b y) as [L'|L']].
    + pose proof (HC a y). pose proof (Hx a ltac:(lra)). nra.
    + pose proof (HC b y). pose proof (Hx b ltac:(lra)). nra.
    + apply Hx. lra.
  - intros x Hx. split; apply Rnot_lt_le; intro L.
    + pose proof (HC a x). pose proof (Hx a). nra.
    + pose proof (HC b x). pose proof (Hx b). nra.
Qed.

(** ** The spread of the weighted sum score *)
Lemma total_cons w c row d : S_Suff.total w (c :: row) d = match answer c with None => 0 | Some k => w 0%nat k d end + S_Suff.total (fun i => w (S i)) row d.
Proof. unfold S_Suff.total. rewrite mapi_cons. reflexivity. Qed.
Lemma item_moments cats : forall seen f (w : nat -> nat -> nat -> R), length seen = length cats -> (forall i, (i < length cats)%nat -> sumn (nth i cats O) (f i) = 1) -> (forall i, (i < length cats)%nat -> sumn (nth i cats O) (fun k => f i k * w i k 0%nat) = 0) ->
  over (possible_rows cats seen) (fun row => row_product f row * S_Suff.total w row 0) = 0 /\
  over (possible_rows cats seen) (fun row => row_product f row * (S_Suff.total w row 0 * S_Suff.total w row 0)) =
    sumn (length cats) (fun i => if nth i seen false then sumn (nth i cats O) (fun k => f i k * (w i k 0%nat * w i k 0%nat)) else 0).
Proof.
  induction cats as [|K cats IH]; intros [|b seen] f w HL H1 H0; try discriminate; [unfold over, row_product, S_Suff.total; cbn; split; ring|].
  assert (L' : length seen = length cats) by (cbn [length] in HL; lia). assert (F1 : forall i, (i < length cats)%nat -> sumn (nth i cats O) (f (S i)) = 1) by (intros i Hi; apply (H1 (S i)); cbn [length]; lia).
  assert (F0 : forall i, (i < length cats)%nat -> sumn (nth i cats O) (fun k => f (S i) k * w (S i) k 0%nat) = 0) by (intros i Hi; apply (H0 (S i)); cbn [length]; lia).
  destruct (IH seen (fun i => f (S i)) (fun i => w (S i)) L' F1 F0) as [I1 I2]. pose proof (rows_total cats seen (fun i => f (S i)) L' F1) as I0. cbn [length]. rewrite sumn_S_first. cbn [nth possible_rows].
  set (T := S_Suff.total (fun i => w (S i))) in *. set (Q := row_product (fun i => f (S i))) in *. destruct b.
  - assert (Z1 := H1 0%nat ltac:(cbn; lia)). assert (Z0 := H0 0%nat ltac:(cbn; lia)). cbn [nth] in Z1, Z0. rewrite !over_flat, !over_seq. split.
    + rewrite <- Z0. apply sumn_ext. intros k _. rewrite over_map. rewrite (over_ext _ _ (fun row => (f 0%nat k * w 0%nat k 0%nat) * Q row + f 0%nat k * (Q row * T row 0%nat))) by (intros row _; rewrite row_product_cons, total_cons, answer_of_nat; fold T Q; ring). rewrite over_plus, !over_scal, I0, I1. ring.
    + rewrite <- I2. rewrite (sumn_ext K _ (fun k => f 0%nat k * (w 0%nat k 0%nat * w 0%nat k 0%nat) + over (possible_rows cats seen) (fun row => Q row * (T row 0%nat * T row 0%nat)) * f 0%nat k)); [rewrite sumn_plus, sumn_scal, Z1; ring|]. intros k _. rewrite over_map.
      rewrite (over_ext _ _ (fun row => (f 0%nat k * (w 0%nat k 0%nat * w 0%nat k 0%nat)) * Q row + ((2 * f 0%nat k * w 0%nat k 0%nat) * (Q row * T row 0%nat) + f 0%nat k * (Q row * (T row 0%nat * T row 0%nat))))) by (intros row _; rewrite row_product_cons, total_cons, answer_of_nat; fold T Q; ring). rewrite !over_plus, !over_scal, I0, I1. ring.
  - rewrite !over_map. split.
    + rewrite <- I1. apply over_ext. intros row _. rewrite row_product_cons, total_cons. cbn [answer]. fold T Q. ring.
    + rewrite <- I2, Rplus_0_l. apply over_ext. intros row _. rewrite row_product_cons, total_cons. cbn [answer]. fold T Q. ring.
Qed.
Lemma answered_sum : forall seen n, length seen = n -> sumn n (fun i => if nth i seen false then 1 else 0) = INR (answered seen).
Proof.
  unfold answered. induction seen as [|b seen IH]; intros [|n] HL; try discriminate; [reflexivity|]. rewrite sumn_S_first. cbn [nth]. rewrite (IH n) by (cbn [length] in HL; lia). cbn [count_occ]. destruct b; destruct (Bool.bool_dec _ true) as [E|E]; try congruence; [rewrite S_INR|]; ring.
Qed.
Lemma item_chance cats seen f w B eta : length seen = length cats -> (forall i, (i < length cats)%nat -> sumn (nth i cats O) (f i) = 1) -> (forall i, (i < length cats)%nat -> sumn (nth i cats O) (fun k => f i k * w i k 0%nat) = 0) -> (forall i k, (k < nth i cats O)%nat -> 0 <= f i k) ->
  (forall row, In row (possible_rows cats seen) -> 0 <= row_product f row) -> (forall i k, nth i seen false = true -> (k < nth i cats O)%nat -> Rabs (w i k 0%nat) <= B) -> 0 < B -> 0 < eta -> (0 < answered seen)%nat ->
  let n := INR (answered seen) in 1 - / (n * ((eta / B) * (eta / B))) <= over (possible_rows cats seen) (fun row => if Rlt_dec (Rabs (S_Suff.total w row 0)) (n * eta) then row_product f row else 0).
Proof.
  intros HL H1 H0 Pf Pr HB PB He Hn n. assert (Pn : 0 < n) by (apply lt_INR in Hn; exact Hn). destruct (item_moments cats seen f w HL H1 H0) as [_ V]. set (rows := possible_rows cats seen) in *. set (D := fun row => S_Suff.total w row 0) in *. set (Q := row_product f) in *.
  assert (VB : over rows (fun row => Q row * (D row * D row)) <= n * (B * B)).
  { unfold D. rewrite V. unfold n. rewrite <- (answered_sum seen (length cats) HL). rewrite Rmult_comm, <- sumn_scal. apply sumn_le. intros i Hi. destruct (nth i seen false) eqn:Es; [|lra]. rewrite Rmult_1_r.
    apply Rle_trans with (sumn (nth i cats O) (fun k => (B * B) * f i k)); [|rewrite sumn_scal, H1 by exact Hi; lra]. apply sumn_le. intros k Hk. specialize (HB i k Es Hk). specialize (Pf i k Hk). assert (w i k 0%nat * w i k 0%nat <= B * B) by (unfold Rabs in HB; destruct (Rcase_abs (w i k 0%nat)); nra). nra. }
  assert (S1 : over rows Q = 1) by exact (rows_total cats seen f HL H1).
  assert (NE : 0 < n * eta) by nra. assert (BD : over rows (fun row => if Rlt_dec (Rabs (D row)) (n * eta) then 0 else Q row) <= / ((n * eta) * (n * eta)) * over rows (fun row => Q row * (D row * D row))).
  { rewrite <- over_scal. apply over_le. intros row Hr. specialize (Pr row Hr). assert (PI : 0 < / ((n * eta) * (n * eta))) by (apply Rinv_0_lt_compat; nra). destruct (Rlt_dec _ _) as [L|L]; [apply Rmult_le_pos; [lra|apply Rmult_le_pos; [exact Pr|apply Rle_0_sqr]]|].
    apply Rnot_lt_le in L. replace (Q row) with (/ ((n * eta) * (n * eta)) * (Q row * ((n * eta) * (n * eta)))) at 1 by (field; split; lra). apply Rmult_le_compat_l; [lra|]. apply Rmult_le_compat_l; [exact Pr|]. unfold Rabs in L. destruct (Rcase_abs (D row)); nra. }
  assert (BF : / ((n * eta) * (n * eta)) * over rows (fun row => Q row * (D row * D row)) <= / (n * ((eta / B) * (eta / B)))).
  { replace (/ (n * ((eta / B) * (eta / B)))) with (/ ((n * eta) * (n * eta)) * (n * (B * B))) by (field; repeat split; lra). apply Rmult_le_compat_l; [apply Rlt_le, Rinv_0_lt_compat; nra|exact VB]. }
  assert (E : over rows Q = over rows (fun row => if Rlt_dec (Rabs (D row)) (n * eta) then Q row else 0) + over rows (fun row => if Rlt_dec (Rabs (D row)) (n * eta) then 0 else Q row)) by (rewrite <- over_plus; apply over_ext; intros row _; destruct (Rlt_dec _ _); ring).
  unfold D in *. lra.
Qed.

(** ** The items a row answers *)
Lemma rows_answered cats : forall seen row i, In row (possible_rows cats seen) -> length seen = length cats -> nth i seen false = true -> answer (nth i row None) <> None.
Proof.
  induction cats as [|K cats IH]; intros [|b seen] row i Hin HL Hs; try discriminate; [destruct i; discriminate|]. cbn [possible_rows] in Hin. destruct b.
  - apply in_flat_map in Hin as (k0 & Hk & Hin). apply in_map_iff in Hin as (row' & <- & Hin). destruct i as [|i]; cbn [nth] in *; [now rewrite answer_of_nat|apply (IH seen row' i); auto].
  - apply in_map_iff in Hin as (row' & <- & Hin). destruct i as [|i]; cbn [nth] in *; [discriminate|]. apply (IH seen row' i); auto.
Qed.
Definition mean_item (p : list R -> nat -> nat -> R) (w : nat -> nat -> nat -> R) (cats : list nat) (i : nat) (t : list R) : R := sumn (nth i cats O) (fun k => w i k 0%nat * p t i k).
Lemma expected_seen p w cats seen row t : In row (possible_rows cats seen) -> length seen = length cats -> legal_row cats row ->
  expected_total p w cats row t 0 = sumn (length cats) (fun i => if nth i seen false then mean_item p w cats i t else 0).
Proof.
  intros Hin HL [Lr _]. unfold expected_total. rewrite Lr. apply sumn_ext. intros i Hi. destruct (nth i seen false) eqn:Es.
  - pose proof (rows_answered cats seen row i Hin HL Es). destruct (answer (nth i row None)); [reflexivity|congruence].
  - destruct (answer (nth i row None)) as [k|] eqn:Ea; [|reflexivity]. destruct (rows_seen cats seen row i k Hin HL Ea). congruence.
Qed.
Lemma centred_total p w cats seen row t : In row (possible_rows cats seen) -> length seen = length cats -> legal_row cats row ->
  S_Suff.total (fun i k d => w i k d - mean_item p w cats i t) row 0 = S_Suff.total w row 0 - expected_total p w cats row t 0.
Proof.
  intros Hin HL [Lr _]. unfold S_Suff.total, expected_total. rewrite !(rsum_mapi (None : cell)), <- sumn_minus. apply sumn_ext. intros i Hi. destruct (answer (nth i row None)); [reflexivity|ring].
Qed.
(** With [kappa] per item the expected weighted sum score rises by [kappa] times their number. *)
Lemma expected_rise p w cats seen row t t' kappa : In row (possible_rows cats seen) -> length seen = length cats -> legal_row cats row ->
  (forall i, (i < length cats)%nat -> nth i seen false = true -> mean_item p w cats i t + kappa <= mean_item p w cats i t') ->
  expected_total p w cats row t 0 + INR (answered seen) * kappa <= expected_total p w cats row t' 0.
Proof.
  intros Hin HL Hr H. rewrite !(expected_seen p w cats seen row) by assumption. rewrite <- (answered_sum seen (length cats) HL), Rmult_comm, <- sumn_scal, <- sumn_plus. apply sumn_le. intros i Hi. destruct (nth i seen false) eqn:Es; [|lra]. specialize (H i Hi Es). lra.
Qed.

(** ** Scores *)
Lemma target_concave prior : ml_or_map prior -> exists v, 0 <= v /\ (prior = None -> v = 0) /\ forall m p w row, weights_of m p w -> em_lv m = 1%nat -> legal_row (em_cats m) row ->
  (forall x, derivable_pt_lim (fun x => row_target p prior row [x]) x (S_Suff.total w row 0 - expected_total p w (em_cats m) row [x] 0 - v * x)) /\
  forall x y, row_target p prior row [y] <= row_target p prior row [x] + (S_Suff.total w row 0 - expected_total p w (em_cats m) row [x] 0 - v * x) * (y - x).
Proof.
  assert (G0 : forall m p w row, weights_of m p w -> em_lv m = 1%nat -> legal_row (em_cats m) row -> (forall x, touches 1 (fun t => ln (likelihood p t row)) [x] (fun _ => True)) /\ forall x, partial_is (fun t => ln (likelihood p t row)) [x] 0 (S_Suff.total w row 0 - expected_total p w (em_cats m) row [x] 0)).
  { intros m p w row Hw E1 HL. pose proof (weights_library m p w Hw) as Hm.
  assert (HP : forall t i k, length t = em_lv m -> (k < nth i (em_cats m) O)%nat -> 0 < p t i k) by (intros; now apply (library_pos m p Hm)).
  assert (A : forall x, touches 1 (fun t => ln (likelihood p t row)) [x] (fun _ => True)).
  { intro x. rewrite <- E1. eapply touches_weaken; [|apply (likelihood_touches (em_lv m) (em_cats m) p row [x] HP (weights_log_concave m p w Hw) ltac:(now rewrite E1) HL)]. auto. }
  assert (B : forall x, partial_is (fun t => ln (likelihood p t row)) [x] 0 (S_Suff.total w row 0 - expected_total p w (em_cats m) row [x] 0)) by (intro x; apply (likelihood_partial m p w row [x] 0 Hw HL); rewrite E1; [reflexivity|lia]). split; assumption. }
  intro Hp. destruct Hp as [|c P [HS HQ]].
  - exists 0. split; [lra|]. split; [reflexivity|]. intros m p w row Hw E1 HL. destruct (G0 m p w row Hw E1 HL) as [A B]. split.
    + intro x. specialize (B x). unfold partial_is in B. cbn [upd nth] in B. rewrite Rmult_0_l, Rminus_0_r. eapply P_Spline4.derivable_ext; [|exact B]. intro z. unfold row_target, prior_term. ring.
    + intros x y. destruct (A x) as (g & [G1 G2] & _). specialize (G2 [y] eq_refl). pose proof (partial_unique _ _ _ _ _ (G1 0%nat ltac:(lia)) (B x)) as EG. unfold plane in G2. cbn [sumn nth] in G2. rewrite EG in G2. unfold row_target, prior_term. lra.
  - exists (P 0%nat 0%nat). assert (V : 0 < P 0%nat 0%nat). { specialize (HQ (fun _ => 1) ltac:(exists 0%nat; split; [lia|lra])). unfold quad in HQ. cbn [sumn] in HQ. lra. }
    split; [lra|]. split; [discriminate|]. intros m p w row Hw E1 HL. destruct (G0 m p w row Hw E1 HL) as [A B].
    assert (C : forall x, partial_is (normal_prior 1 c P) [x] 0 (- (P 0%nat 0%nat * x))).
    { intro x. replace (- (P 0%nat 0%nat * x)) with (prior_gradient 1 P [x] 0) by (unfold prior_gradient; cbn [sumn nth]; ring). apply prior_partial; [exact HS|reflexivity|lia]. }
    split.
    + intro x. specialize (B x). specialize (C x). unfold partial_is in B, C. cbn [upd nth] in B, C. pose proof (derivable_pt_lim_plus _ _ _ _ _ B C) as D. replace (S_Suff.total w row 0 - expected_total p w (em_cats m) row [x] 0 - P 0%nat 0%nat * x) with (S_Suff.total w row 0 - expected_total p w (em_cats m) row [x] 0 + - (P 0%nat 0%nat * x)) by ring. eapply P_Spline4.derivable_ext; [|exact D]. intro z. reflexivity.
    + intros x y. destruct (touches_plus 1 _ _ [x] _ _ (A x) (prior_touches 1 c P HS [x] HQ eq_refl)) as (g & [G1 G2] & _). specialize (G2 [y] eq_refl). pose proof (G1 0%nat ltac:(lia)) as GG.
      pose proof (B x) as Bx. pose proof (C x) as Cx. unfold partial_is in GG, Bx, Cx. pose proof (derivable_pt_lim_plus _ _ _ _ _ Bx Cx) as D. pose proof (uniqueness_limite _ _ _ _ GG D) as EG. unfold plane in G2. cbn [sumn nth] in G2. rewrite EG in G2. unfold row_target, prior_term. lra.
Qed.
Lemma best_target m p prior row x : library_model m p -> em_lv m = 1%nat -> legal_row (em_cats m) row -> (best_score m prior row x <-> forall y, row_target p prior row [y] <= row_target p prior row [x]).
Proof.
  intros Hm E1 HL. assert (V : forall z, scoring_loss m prior (Wide (em_items m) [row]) [[z]] = Ok (Some (Fin (- row_target p prior row [z])))).
  { intro z. rewrite (scoring_loss_value m p prior [[z]] [row] Hm (Forall_cons [z] (eq_sym E1) (Forall_nil _)) eq_refl (Forall_cons row HL (Forall_nil _))). cbn [length sumn nth]. do 4 f_equal. ring. }
  unfold best_score, not_worse. split; intros H y; specialize (H y).
  - destruct H as (a & b & Ea & Eb & Hl). rewrite V in Ea, Eb. injection Ea as <-. injection Eb as <-. lra.
  - exists (- row_target p prior row [x]), (- row_target p prior row [y]). split; [apply V|]. split; [apply V|]. lra.
Qed.
