(** Property C122: with more items the scores approach the truth. *)
From Verif Require T_Est T_Cons.
From Verif Require Import S_Eap.
From Verif Require Import Base BaseFacts RBase RFacts M_Data M_Logit M_Lik M_Est M_Opt P_Logit P_Logit2 P_Est2 P_Est3 P_Opt3 P_Suff1 S_Logit S_Lik S_Est S_Opt S_Suff S_True S_Cons S_More P_True1 P_More1 P_More2 P_More3.
Import M_Est List.
Local Open Scope R_scope.

(** 1PL, 2PL, generalized partial credit and nominal models: enough answered items that tell the score [theta] from those
    [eps] away. [w]: how much an answer counts. *)
Theorem C122_scores : forall theta eps hi kappa prior delta,
  0 < eps -> 0 < kappa -> 0 < delta -> ml_or_map prior -> exists n0, forall m p w seen,
  weights_of m p w -> em_lv m = 1%nat -> length seen = length (em_cats m) -> (n0 <= answered seen)%nat ->
  let mean i x := sumn (nth i (em_cats m) O) (fun k => w i k 0%nat * p [x] i k) in
  (forall i k, nth i seen false = true -> (k < nth i (em_cats m) O)%nat -> Rabs (w i k 0%nat) <= hi) ->
  (forall i, (i < length (em_cats m))%nat -> nth i seen false = true -> mean i (theta - eps) + kappa <= mean i theta /\ mean i theta + kappa <= mean i (theta + eps)) ->
  exists good,
    (forall row, In row (possible_rows (em_cats m) seen) -> good row = true ->
       (exists x, best_score m prior row x) /\ forall x, best_score m prior row x -> Rabs (x - theta) <= eps) /\
    1 - delta < chance_at (em_cats m) p seen theta good.
Proof. exact many_items. Qed.
Print Assumptions C122_scores.
(** 1PL and 2PL: all items whose slopes are not near 0 and whose parameters are bounded do so. *)
Theorem C122_bounded : forall theta eps lo hi b prior delta,
  0 < eps -> 0 < lo -> 0 < delta -> ml_or_map prior -> exists n0, forall m p line seen,
  two_lines m p line -> length seen = length (em_cats m) -> (n0 <= answered seen)%nat ->
  (forall i, nth i seen false = true -> lo <= Rabs (fst (line i)) <= hi /\ Rabs (snd (line i)) <= b) ->
  exists good,
    (forall row, In row (possible_rows (em_cats m) seen) -> good row = true ->
       (exists x, best_score m prior row x) /\ forall x, best_score m prior row x -> Rabs (x - theta) <= eps) /\
    1 - delta < chance_at (em_cats m) p seen theta good.
Proof. exact bounded_lines. Qed.
Print Assumptions C122_bounded.
(** EAP scores come within one step of the grid around the training scores, for scores in its range. *)
Theorem C122_eap : forall mvn a scores logpdf points theta eps hi kappa delta,
  al_training a = Some (Some scores) -> scores <> [] -> mvn (covariance 1 scores) = Ok logpdf ->
  let g := match points with Some g => g | None => 200%nat end in forall least most, ranges scores 0 least most ->
  let from := least - (most - least) / 4 in let upto := most + (most - least) / 4 in let step := (upto - from) / INR (g - 1) in
  (2 <= g)%nat -> least < most -> from <= theta <= upto -> 0 < eps -> 0 < kappa -> 0 < delta ->
  exists n0, forall m p w seen,
  weights_of m p w -> em_lv m = 1%nat -> length seen = length (em_cats m) -> (n0 <= answered seen)%nat ->
  let mean i x := sumn (nth i (em_cats m) O) (fun k => w i k 0%nat * p [x] i k) in
  (forall i k, nth i seen false = true -> (k < nth i (em_cats m) O)%nat -> Rabs (w i k 0%nat) <= hi) ->
  (forall i, (i < length (em_cats m))%nat -> nth i seen false = true -> mean i (theta - step / 2) + kappa <= mean i theta /\ mean i theta + kappa <= mean i (theta + step / 2)) ->
  exists good,
    (forall row, In row (possible_rows (em_cats m) seen) -> good row = true ->
       exists x, eap_theta_scores mvn m a points (Wide (em_items m) [row]) = Ok [[Some (Fin x)]] /\ Rabs (x - theta) <= step + eps) /\
    1 - delta < chance_at (em_cats m) p seen theta good.
Proof.
  intros mvn a scores logpdf points theta eps hi kappa delta Ha Hs HM g least most HRG from upto step Hg Hlm Ht He Hk Hd.
  destruct (spaced_grid from upto g theta Hg ltac:(unfold from, upto; lra) Ht) as (PS & gl & gr & Il & Ir & Egr & Hth & HG). fold step in PS, Egr, HG. set (grid := M_CV.product [linspace from upto g]) in *.
  destruct (many_items_mean theta step eps hi kappa delta grid (fun t => exp (logpdf t)) gl gr PS He Hk Hd) as (n0 & H); [intros t Hin; split; [apply exp_pos|apply HG, Hin]|exact Il|exact Ir|exact Hth|intros t Hin; apply HG, Hin|].
  exists n0. intros m p w seen Hw E1 HS Hn mean HB HR. destruct (H m p w seen Hw E1 HS Hn HB HR) as (good & G1 & G2). exists good. split; [|exact G2]. intros row Hin Hgood. specialize (G1 row Hin Hgood).
  pose proof (weights_library m p w Hw) as Hm. pose proof (rows_legal (em_cats m) seen row HS Hin) as HL. exists (posterior_mean p grid (fun t => exp (logpdf t)) row 0). split; [|apply Rabs_le; lra].
  assert (LD : legal_data (em_cats m) [row]) by (constructor; [exact HL|constructor]).
  destruct (T_Est.any_model_grid mvn m p a scores logpdf points [row] (library_has_probabilities m p Hm) (flat_rowwise m (library_flat m p Hm)) (library_items m p Hm) ltac:(lia) Ha Hs ltac:(now rewrite E1)) as (grid' & Eg & E); [rewrite E1; fold g; unfold eap_default_points; lia|discriminate|exact LD|].
  assert (EG : grid' = grid). { rewrite E1 in Eg. unfold theta_grid in Eg. destruct scores as [|s0 scores']; [congruence|]. injection Eg as <-. destruct (T_Est.ranges_is _ _ _ _ HRG) as [-> ->]. reflexivity. }
  subst grid'. rewrite E, E1; [reflexivity|]. constructor; [exists [gl]; split; [exact Il|now apply (library_likelihood m p)]|constructor].
Qed.
Print Assumptions C122_eap.
(** 1PL and 2PL. *)
Theorem C122_eap_bounded : forall mvn a scores logpdf points theta eps lo hi b delta,
  al_training a = Some (Some scores) -> scores <> [] -> mvn (covariance 1 scores) = Ok logpdf ->
  let g := match points with Some g => g | None => 200%nat end in forall least most, ranges scores 0 least most ->
  let from := least - (most - least) / 4 in let upto := most + (most - least) / 4 in let step := (upto - from) / INR (g - 1) in
  (2 <= g)%nat -> least < most -> from <= theta <= upto -> 0 < eps -> 0 < lo -> 0 < delta ->
  exists n0, forall m p line seen,
  two_lines m p line -> length seen = length (em_cats m) -> (n0 <= answered seen)%nat ->
  (forall i, nth i seen false = true -> lo <= Rabs (fst (line i)) <= hi /\ Rabs (snd (line i)) <= b) ->
  exists good,
    (forall row, In row (possible_rows (em_cats m) seen) -> good row = true ->
       exists x, eap_theta_scores mvn m a points (Wide (em_items m) [row]) = Ok [[Some (Fin x)]] /\ Rabs (x - theta) <= step + eps) /\
    1 - delta < chance_at (em_cats m) p seen theta good.
Proof.
  intros mvn a scores logpdf points theta eps lo hi b delta Ha Hs HM g least most HRG from upto step Hg Hlm Ht He Hlo Hd.
  destruct (spaced_grid from upto g theta Hg ltac:(unfold from, upto; lra) Ht) as (PS & _). fold step in PS. destruct (lines_rise theta (step / 2) lo hi b ltac:(lra) Hlo) as (kappa & Hk & HR).
  destruct (C122_eap mvn a scores logpdf points theta eps hi kappa delta Ha Hs HM least most HRG Hg Hlm Ht He Hk Hd) as (n0 & H). exists n0. intros m p line seen Hl HS Hn HB. destruct (HR m p line seen Hl HB) as (w & Hw & E1 & W1 & W2). exact (H m p w seen Hw E1 HS Hn W1 W2).
Qed.
Print Assumptions C122_eap_bounded.
(** EAP scores stay within that grid, however many items are answered. *)
Theorem C122_eap_refuted : forall mvn m p a scores logpdf points data theta eps,
  library_model m p -> em_lv m = 1%nat -> al_training a = Some (Some scores) -> scores <> [] ->
  mvn (covariance 1 scores) = Ok logpdf -> (0 < match points with Some g => g | None => 200 end)%nat ->
  data <> [] -> legal_data (em_cats m) data ->
  forall lo hi, ranges scores 0 lo hi ->
  hi + (hi - lo) / 4 + eps <= theta \/ theta <= lo - (hi - lo) / 4 - eps ->
  exists xs, eap_theta_scores mvn m a points (Wide (em_items m) data) = Ok (map (fun x => [Some (Fin x)]) xs) /\
    length xs = length data /\ forall x, In x xs -> eps <= Rabs (x - theta).
Proof.
  intros mvn m p a scores logpdf points data theta eps Hm E1 Ha Hs HM Hg Hne HD lo hi HRG HT.
  destruct (T_Est.C33_posterior_mean mvn m p a scores logpdf points data Hm ltac:(lia) Ha Hs ltac:(now rewrite E1) ltac:(rewrite E1; exact Hg) Hne HD) as (grid & _ & E & HB).
  pose proof (fun row => HB 0%nat lo hi row ltac:(lia) HRG) as B. rewrite E, E1. cbn [seq map].
  set (f := fun row => rsum (map (fun t => nth 0 t 0 * (exp (logpdf t) * likelihood p t row)) grid) / rsum (map (fun t => exp (logpdf t) * likelihood p t row) grid)) in *.
  exists (map f data). rewrite map_map, map_length. split; [reflexivity|]. split; [reflexivity|]. intros x Hx. apply in_map_iff in Hx as (row & <- & Hr). specialize (B row Hr). fold (f row) in B. unfold Rabs. destruct (Rcase_abs (f row - theta)); destruct HT; lra.
Qed.
Print Assumptions C122_eap_refuted.

(** Tests of any length, all items answered, in the Rasch model: the bounds hold; yet one of the possible rows has no best
    ML score. *)
Definition easy (n : nat) : opl := {| opl_items := S n; opl_b := repeat 0 (S n) |}.
Example C122_nonvacuous : forall n,
  two_lines (of_sub (opl_sub 0 (easy n))) (opl_p (easy n)) (fun i => (1, nth i (opl_b (easy n)) 0)) /\
  answered (repeat true (S n)) = S n /\
  (forall i, nth i (repeat true (S n)) false = true -> 1 <= Rabs 1 <= 1 /\ Rabs (nth i (opl_b (easy n)) 0) <= 0) /\
  let row := T_Cons.all_right (repeat true (S n)) in
  In row (possible_rows (em_cats (of_sub (opl_sub 0 (easy n)))) (repeat true (S n))) /\ forall x, ~ best_score (of_sub (opl_sub 0 (easy n))) None row x.
Proof.
  intro n. assert (L : two_lines (of_sub (opl_sub 0 (easy n))) (opl_p (easy n)) (fun i => (1, nth i (opl_b (easy n)) 0))) by (apply lines_opl; [apply repeat_length|cbn; lia]). split; [exact L|].
  split; [unfold answered; induction (S n) as [|k IH]; [reflexivity|]; cbn [repeat count_occ]; destruct (Bool.bool_dec true true); [now rewrite IH|congruence]|].
  split; [intros i _; rewrite Rabs_R1; cbn [easy opl_b]; assert (Z : nth i (repeat 0 (S n)) 0 = 0) by (generalize (S n); intro k; revert i; induction k as [|k IH]; intros [|i]; cbn [repeat nth]; auto); rewrite Z, Rabs_R0; lra|].
  intro row. pose proof (T_Cons.all_right_possible (repeat true (S n))) as HP. rewrite repeat_length in HP. split; [exact HP|]. assert (NR : forall k i, (i < k)%nat -> answer (nth i (T_Cons.all_right (repeat true k)) None) = Some 1%nat) by (induction k as [|k IH]; intros [|i] Hi; try lia; [reflexivity|apply IH; lia]).
  assert (LR : length row = S n) by (unfold row, T_Cons.all_right; now rewrite map_length, repeat_length).
  apply (all_right_none _ _ _ row L); [apply (rows_legal (repeat 2%nat (S n)) (repeat true (S n))); [now rewrite !repeat_length|exact HP]|lia|intros i Hi; apply NR; lia|intro; cbn [fst]; lra].
Qed.
Example C122_eap_nonvacuous :
  let scores := [[-1]; [1]; [3]] in let lo := rmin_list (column 0 0 scores) in let hi := rmax_list (column 0 0 scores) in
  library_model T_Est.ex_model (opl_p T_Est.ex_opl) /\ legal_data (em_cats T_Est.ex_model) T_Est.ex_resp /\ hi + (hi - lo) / 4 + 1 <= 5 /\
  lo < hi /\ lo - (hi - lo) / 4 <= 1 / 2 <= hi + (hi - lo) / 4 /\ (hi + (hi - lo) / 4 - (lo - (hi - lo) / 4)) / INR (200 - 1) < 1 / 30 /\
  al_training (jml_fitted scores) = Some (Some scores) /\ T_Est.ex_mvn (covariance 1 scores) = Ok (fun t => - (nth 0 t 0) ^ 2 / 2).
Proof.
  intros scores lo hi. split; [exact T_Est.ex_library|]. split; [exact T_Est.ex_resp_legal|]. unfold hi, lo, rmin_list, rmax_list, column, scores. cbn [map nth fold_left]. rewrite (Rmax_right (-1) 1), (Rmax_right 1 3), (Rmin_left (-1) 1), (Rmin_left (-1) 3) by lra. split; [lra|]. split; [lra|]. split; [lra|]. split; [|split; reflexivity]. change (200 - 1)%nat with 199%nat. rewrite INR_IZR_INZ. cbn [Z.of_nat Pos.of_succ_nat Pos.succ]. lra.
Qed.
