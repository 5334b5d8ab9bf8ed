(** Scores from many items. *)
From Verif Require Import Base BaseFacts RBase RFacts M_Data M_Logit M_Lik M_Est M_Opt P_Logit P_Logit2 P_Logit4 P_Est1 P_Est2 P_Opt1 P_Opt2 P_Opt3 P_Opt4 P_Max1 P_Suff1 P_Suff2 P_Scoreq S_Logit S_Lik S_Est S_Item S_Opt S_Suff S_Scoreq S_True S_Cons S_More P_True1 P_True2 P_True3 P_Cons1 P_Cons2 P_More1.
Import List.
Local Open Scope R_scope.

(** The weighted sum score is near the one expected. *)
Lemma items_near theta hi eta delta : 0 < eta -> 0 < delta -> exists n1, forall m p w seen,
  weights_of m p w -> length seen = length (em_cats m) -> (n1 <= answered seen)%nat ->
  (forall i k, nth i seen false = true -> (k < nth i (em_cats m) O)%nat -> Rabs (w i k 0%nat) <= hi) ->
  1 - delta < chance_at (em_cats m) p seen theta (fun row => if Rlt_dec (Rabs (S_Suff.total (fun i k d => w i k d - mean_item p w (em_cats m) i [theta]) row 0)) (INR (answered seen) * eta) then true else false).
Proof.
  intros He Hd. set (B := 2 * (Rabs hi + 1)). assert (PB : 0 < B) by (unfold B; pose proof (Rabs_pos hi); lra).
  destruct (large (eta / B) delta) as (n1 & Hn1 & HN); [apply Rdiv_lt_0_compat; lra|exact Hd|]. exists n1. intros m p w seen Hw HS Hn HB. pose proof (weights_library m p w Hw) as Hm. set (cats := em_cats m) in *. set (n := INR (answered seen)).
  set (D := fun row => S_Suff.total (fun i k d => w i k d - mean_item p w cats i [theta]) row 0).
  assert (Pn : (0 < answered seen)%nat) by lia. unfold chance_at.
    assert (LT : forall i, (i < length cats)%nat -> sumn (nth i cats O) (p [theta] i) = 1) by (apply (library_total m p Hm)).
    assert (LP : forall i k, (k < nth i cats O)%nat -> 0 < p [theta] i k) by (intros; now apply (library_pos m p Hm)).
    assert (MB : forall i, (i < length cats)%nat -> nth i seen false = true -> Rabs (mean_item p w cats i [theta]) <= Rabs hi).
    { intros i Hi Hs. unfold mean_item. apply Rabs_le. assert (Q : forall k, (k < nth i cats O)%nat -> - Rabs hi <= w i k 0%nat <= Rabs hi) by (intros k Hk'; specialize (HB i k Hs Hk'); pose proof (Rle_abs hi); unfold Rabs in HB at 1; destruct (Rcase_abs (w i k 0%nat)); lra).
      split; [apply Rle_trans with (sumn (nth i cats O) (fun k => - Rabs hi * p [theta] i k)); [rewrite sumn_scal, LT by exact Hi; lra|]|apply Rle_trans with (sumn (nth i cats O) (fun k => Rabs hi * p [theta] i k)); [|rewrite sumn_scal, LT by exact Hi; lra]]; apply sumn_le; intros k Hk'; specialize (Q k Hk'); specialize (LP i k Hk'); apply Rmult_le_compat_r; lra. }
    assert (SL : forall i, nth i seen false = true -> (i < length cats)%nat) by (intros i Hs; destruct (lt_dec i (length seen)) as [|G]; [lia|rewrite nth_overflow in Hs by lia; discriminate]).
    pose proof (item_chance cats seen (p [theta]) (fun i k d => w i k d - mean_item p w cats i [theta]) B (eta) HS LT) as IC. cbv zeta in IC. apply Rlt_le_trans with (1 - / (n * (eta / B * (eta / B)))); [pose proof (HN (answered seen) ltac:(lia)) as Q; fold n in Q; lra|].
    assert (EI : over (possible_rows cats seen) (fun row => if Rlt_dec (Rabs (S_Suff.total (fun i k d => w i k d - mean_item p w cats i [theta]) row 0)) (n * (eta)) then row_product (p [theta]) row else 0) = rsum (map (fun row => if (if Rlt_dec (Rabs (D row)) (n * (eta)) then true else false) then likelihood p [theta] row else 0) (possible_rows cats seen))).
    { apply over_ext. intros row _. fold (D row). destruct (Rlt_dec _ _); reflexivity. }
    apply Rle_trans with (over (possible_rows cats seen) (fun row => if Rlt_dec (Rabs (S_Suff.total (fun i k d => w i k d - mean_item p w cats i [theta]) row 0)) (n * eta) then row_product (p [theta]) row else 0)); [|apply Req_le; exact EI]. apply IC; clear IC EI; [| | | |exact PB|lra|exact Pn].
    + intros i Hi. rewrite (sumn_ext _ _ (fun k => w i k 0%nat * p [theta] i k - mean_item p w cats i [theta] * p [theta] i k)) by (intros; ring). rewrite sumn_minus, sumn_scal, LT by exact Hi. unfold mean_item. ring.
    + intros i k Hk'. apply Rlt_le. now apply LP.
    + intros row Hin. apply Rlt_le. apply (library_likelihood m p); [exact Hm|now apply (rows_legal cats seen)].
    + intros i k Hs Hk'. specialize (HB i k Hs Hk'). specialize (MB i (SL i Hs) Hs). pose proof (Rle_abs hi). unfold B. apply Rabs_le. unfold Rabs in HB at 1, MB at 1. destruct (Rcase_abs (w i k 0%nat)), (Rcase_abs (mean_item p w cats i [theta])); lra.
Qed.
Lemma many_items theta eps hi kappa prior delta : 0 < eps -> 0 < kappa -> 0 < delta -> ml_or_map prior -> exists n0, forall m p w seen,
  weights_of m p w -> em_lv m = 1%nat -> length seen = length (em_cats m) -> (n0 <= answered seen)%nat ->
  (forall i k, nth i seen false = true -> (k < nth i (em_cats m) O)%nat -> Rabs (w i k 0%nat) <= hi) ->
  (forall i, (i < length (em_cats m))%nat -> nth i seen false = true -> mean_item p w (em_cats m) i [theta - eps] + kappa <= mean_item p w (em_cats m) i [theta] /\ mean_item p w (em_cats m) i [theta] + kappa <= mean_item p w (em_cats m) i [theta + eps]) ->
  exists good, (forall row, In row (possible_rows (em_cats m) seen) -> good row = true -> (exists x, best_score m prior row x) /\ forall x, best_score m prior row x -> Rabs (x - theta) <= eps) /\
    1 - delta < chance_at (em_cats m) p seen theta good.
Proof.
  intros He Hk Hd Hp. destruct (target_concave prior Hp) as (v & Hv & _ & HC). destruct (items_near theta hi (kappa / 2) delta ltac:(lra) Hd) as (n1 & HN).
  set (need := 2 * (v * (Rabs theta + eps)) / kappa). assert (Nn : 0 <= need) by (unfold need; apply Rmult_le_pos; [|apply Rlt_le, Rinv_0_lt_compat, Hk]; pose proof (Rabs_pos theta); assert (0 <= v * (Rabs theta + eps)) by (apply Rmult_le_pos; lra); lra). assert (AR : exists n2, need < INR n2) by (destruct (archimed need) as [A _]; exists (Z.to_nat (up need)); rewrite INR_IZR_INZ, Z2Nat.id; [lra|]; apply le_IZR; cbn; lra). destruct AR as [n2 Hn2].
  exists (Nat.max n1 n2). intros m p w seen Hw E1 HS Hn HB HM. pose proof (weights_library m p w Hw) as Hm. set (cats := em_cats m) in *. set (n := INR (answered seen)).
  set (D := fun row => S_Suff.total (fun i k d => w i k d - mean_item p w cats i [theta]) row 0). exists (fun row => if Rlt_dec (Rabs (D row)) (n * (kappa / 2)) then true else false). split.
  - intros row Hin HG. destruct (Rlt_dec (Rabs (D row)) (n * (kappa / 2))) as [HD|]; [clear HG|discriminate]. pose proof (rows_legal cats seen row HS Hin) as HL. destruct (HC m p w row Hw E1 HL) as [C1 C2].
    assert (ED : D row = S_Suff.total w row 0 - expected_total p w cats row [theta] 0) by exact (centred_total p w cats seen row [theta] Hin HS HL).
    pose proof (expected_rise p w cats seen row [theta - eps] [theta] kappa Hin HS HL (fun i Hi Hs => proj1 (HM i Hi Hs))) as R1. pose proof (expected_rise p w cats seen row [theta] [theta + eps] kappa Hin HS HL (fun i Hi Hs => proj2 (HM i Hi Hs))) as R2. fold n in R1, R2.
    assert (NV : v * (Rabs theta + eps) <= n * (kappa / 2)). { assert (need <= n) by (unfold n; apply Rlt_le; apply Rlt_le_trans with (INR n2); [lra|apply le_INR; lia]). unfold need in H. apply (Rmult_le_compat_r kappa) in H; [|lra]. unfold Rdiv in H. rewrite Rmult_assoc, Rinv_l in H by lra. lra. }
    assert (T1 : - Rabs theta <= theta <= Rabs theta) by (pose proof (Rle_abs theta); pose proof (Rle_abs (- theta)); rewrite Rabs_Ropp in *; lra). assert (HD' : - (n * (kappa / 2)) < D row < n * (kappa / 2)) by (unfold Rabs in HD; destruct (Rcase_abs (D row)); lra).
    assert (V1 : v * (theta + eps) >= - (v * (Rabs theta + eps))) by nra. assert (V2 : v * (theta - eps) <= v * (Rabs theta + eps)) by nra.
    destruct (concave_peak (fun x => row_target p prior row [x]) (fun x => S_Suff.total w row 0 - expected_total p w cats row [x] 0 - v * x) (theta - eps) (theta + eps)) as [P1 P2]; [lra|exact C1|exact C2|lra|lra|].
    split; [destruct P1 as [x Hx]; exists x; now apply (best_target m p)|]. intros x Hx. pose proof (P2 x (proj1 (best_target m p prior row x Hm E1 HL) Hx)) as P3. apply Rabs_le. lra.
  - exact (HN m p w seen Hw HS ltac:(lia) HB).
Qed.
(** How much a logistic curve rises. *)
Lemma logistic_rise r u x : - r <= u <= r -> - r <= x <= r -> exp (- r) / ((1 + exp r) * (1 + exp r)) * ((x - u) * (x - u)) <= (x - u) * (logistic x - logistic u).
Proof.
  assert (G : forall u x, - r <= u <= r -> - r <= x <= r -> u <= x -> exp (- r) / ((1 + exp r) * (1 + exp r)) * (x - u) <= logistic x - logistic u).
  { clear. intros u x Hu Hx Hl. assert (LE : forall a b, a <= b -> exp a <= exp b) by (intros a b [H| ->]; [left; now apply exp_increasing|lra]). rewrite !logistic_exp.
    assert (EE : exp (- r) * (x - u) <= exp x - exp u).
    { replace x with (u + (x - u)) at 2 by ring. rewrite exp_plus. pose proof (LE (- r) u ltac:(lra)). pose proof (exp_pos (- r)). assert (1 + (x - u) <= exp (x - u)) by (destruct (Req_dec (x - u) 0) as [->|Hne]; [rewrite exp_0; lra|left; now apply exp_ineq1]). nra. }
    pose proof (exp_pos u). pose proof (exp_pos x). pose proof (exp_pos r). pose proof (LE u r ltac:(lra)). pose proof (LE x r ltac:(lra)). pose proof (exp_pos (- r)).
    replace (exp x / (1 + exp x) - exp u / (1 + exp u)) with ((exp x - exp u) / ((1 + exp x) * (1 + exp u))) by (field; split; lra).
    apply Rle_trans with (exp (- r) * (x - u) / ((1 + exp x) * (1 + exp u))).
    - replace (exp (- r) / ((1 + exp r) * (1 + exp r)) * (x - u)) with (exp (- r) * (x - u) * / ((1 + exp r) * (1 + exp r))) by (field; lra). unfold Rdiv. apply Rmult_le_compat_l; [apply Rmult_le_pos; lra|]. apply Rinv_le_contravar; [nra|]. apply Rmult_le_compat; lra.
    - apply Rmult_le_compat_r; [apply Rlt_le, Rinv_0_lt_compat; nra|exact EE]. }
  intros Hu Hx. destruct (Rle_lt_dec u x) as [L|L].
  - specialize (G u x Hu Hx L). replace (exp (- r) / ((1 + exp r) * (1 + exp r)) * ((x - u) * (x - u))) with ((x - u) * (exp (- r) / ((1 + exp r) * (1 + exp r)) * (x - u))) by ring. apply Rmult_le_compat_l; lra.
  - specialize (G x u Hx Hu ltac:(lra)). replace (exp (- r) / ((1 + exp r) * (1 + exp r)) * ((x - u) * (x - u))) with ((u - x) * (exp (- r) / ((1 + exp r) * (1 + exp r)) * (u - x))) by ring. replace ((x - u) * (logistic x - logistic u)) with ((u - x) * (logistic u - logistic x)) by ring. apply Rmult_le_compat_l; lra.
Qed.
Lemma lines_weights m p line : two_lines m p line -> exists w, weights_of m p w /\ em_lv m = 1%nat /\ (forall i, (i < length (em_cats m))%nat -> nth i (em_cats m) O = 2%nat) /\
  (forall i k, w i k 0%nat = INR k * fst (line i)) /\ forall i x, mean_item p w (em_cats m) i [x] = if (i <? length (em_cats m))%nat then fst (line i) * logistic (fst (line i) * x + snd (line i)) else 0.
Proof.
  intros [nanl o Lb HI|nanl o Ho HI E1].
  - exists (fun i k d => INR k). split; [now apply weights_opl|]. split; [reflexivity|]. cbn [of_sub opl_sub logit_sub em_cats sb_cats]. rewrite repeat_length. assert (T2 : forall i, (i < opl_items o)%nat -> nth i (repeat 2%nat (opl_items o)) O = 2%nat) by (intros i Hi; apply (nth_error_nth _ _ O), nth_error_repeat_lt, Hi). split; [exact T2|]. cbn [fst snd]. split; [intros; ring|].
    intros i x. unfold mean_item. destruct (Nat.ltb_spec i (opl_items o)) as [Hi|Hi]; [|rewrite nth_overflow by (now rewrite repeat_length); reflexivity]. rewrite T2 by exact Hi. unfold opl_p. cbv zeta. cbn [sumn Nat.eqb INR nth]. rewrite !Rmult_1_l. ring.
  - exists (fun i k d => INR k * slope (tpl_free o) (tpl_w o) i d). split; [now apply weights_tpl|]. split; [exact E1|]. cbn [of_sub tpl_sub logit_sub em_cats sb_cats]. rewrite repeat_length. assert (T2 : forall i, (i < tpl_items o)%nat -> nth i (repeat 2%nat (tpl_items o)) O = 2%nat) by (intros i Hi; apply (nth_error_nth _ _ O), nth_error_repeat_lt, Hi). split; [exact T2|]. cbn [fst snd]. split; [reflexivity|].
    intros i x. unfold mean_item. destruct (Nat.ltb_spec i (tpl_items o)) as [Hi|Hi]; [|rewrite nth_overflow by (now rewrite repeat_length); reflexivity]. rewrite T2 by exact Hi. unfold tpl_p. rewrite E1. unfold predictor. cbv zeta. cbn [sumn Nat.eqb INR nth]. rewrite (Rplus_0_l (slope (tpl_free o) (tpl_w o) i 0 * x)). ring.
Qed.
Lemma lines_rise theta eps lo hi b : 0 < eps -> 0 < lo -> exists kappa, 0 < kappa /\ forall m p line seen, two_lines m p line ->
  (forall i, nth i seen false = true -> lo <= Rabs (fst (line i)) <= hi /\ Rabs (snd (line i)) <= b) ->
  exists w, weights_of m p w /\ em_lv m = 1%nat /\ (forall i k, nth i seen false = true -> (k < nth i (em_cats m) O)%nat -> Rabs (w i k 0%nat) <= hi) /\
  forall i, (i < length (em_cats m))%nat -> nth i seen false = true -> mean_item p w (em_cats m) i [theta - eps] + kappa <= mean_item p w (em_cats m) i [theta] /\ mean_item p w (em_cats m) i [theta] + kappa <= mean_item p w (em_cats m) i [theta + eps].
Proof.
  intros He Hlo. set (r := Rabs hi * (Rabs theta + eps) + Rabs b). set (s := exp (- r) / ((1 + exp r) * (1 + exp r))). assert (Ps : 0 < s) by (unfold s; pose proof (exp_pos r); apply Rdiv_lt_0_compat; [apply exp_pos|nra]).
  exists (s * (lo * lo) * eps). split; [assert (0 < lo * lo) by nra; apply Rmult_lt_0_compat; [now apply Rmult_lt_0_compat|exact He]|]. intros m p line seen Hl HB. destruct (lines_weights m p line Hl) as (w & Hw & E1 & T2 & Ew & EM). exists w. split; [exact Hw|]. split; [exact E1|]. split.
  - intros i k Hs Hk. destruct (HB i Hs) as [HA _]. assert (Hi : (i < length (em_cats m))%nat) by (destruct (lt_dec i (length (em_cats m))) as [|G]; [assumption|rewrite nth_overflow in Hk by lia; lia]). rewrite T2 in Hk by exact Hi. rewrite Ew. destruct k as [|[|k]]; [cbn [INR]; rewrite Rmult_0_l, Rabs_R0; lra|cbn [INR]; rewrite Rmult_1_l; lra|lia].
  - intros i Hi Hs. destruct (HB i Hs) as [[H1 H2] H3]. rewrite !EM. destruct (Nat.ltb_spec i (length (em_cats m))) as [_|]; [|lia]. destruct (line i) as [a c]. cbn [fst snd] in *.
    assert (RB : forall x, Rabs x <= Rabs theta + eps -> - r <= a * x + c <= r).
    { intros x Hx. assert (Q : Rabs (a * x + c) <= r). { unfold r. eapply Rle_trans; [apply Rabs_triang|]. rewrite Rabs_mult. apply Rplus_le_compat; [|pose proof (Rle_abs b); lra]. apply Rmult_le_compat; [apply Rabs_pos|apply Rabs_pos|pose proof (Rle_abs hi); lra|exact Hx]. } unfold Rabs in Q. destruct (Rcase_abs (a * x + c)); lra. }
    assert (A2 : lo * lo <= a * a) by (unfold Rabs in H1; destruct (Rcase_abs a); nra).
    assert (G : forall x, Rabs x <= Rabs theta + eps -> Rabs (x + eps) <= Rabs theta + eps -> a * logistic (a * x + c) + s * (lo * lo) * eps <= a * logistic (a * (x + eps) + c)).
    { intros x B1 B2. pose proof (logistic_rise r (a * x + c) (a * (x + eps) + c) (RB _ B1) (RB _ B2)) as L. fold s in L. replace (a * (x + eps) + c - (a * x + c)) with (a * eps) in L by ring. assert (s * (lo * lo) * (eps * eps) <= s * (a * a) * (eps * eps)) by (apply Rmult_le_compat_r; [nra|apply Rmult_le_compat_l; lra]). assert (s * (a * eps * (a * eps)) = s * (a * a) * (eps * eps)) by ring.
      apply (Rmult_le_reg_r eps); [exact He|]. lra. }
    assert (T1 : Rabs theta <= Rabs theta + eps) by lra. split.
    + replace theta with (theta - eps + eps) at 2 by ring. apply G; [|now replace (theta - eps + eps) with theta by ring]. eapply Rle_trans; [apply Rabs_triang|]. rewrite Rabs_Ropp, (Rabs_pos_eq eps) by lra. lra.
    + apply G; [exact T1|]. eapply Rle_trans; [apply Rabs_triang|]. rewrite (Rabs_pos_eq eps) by lra. lra.
Qed.
Lemma bounded_lines theta eps lo hi b prior delta : 0 < eps -> 0 < lo -> 0 < delta -> ml_or_map prior -> exists n0, forall m p line seen,
  two_lines m p line -> length seen = length (em_cats m) -> (n0 <= answered seen)%nat ->
  (forall i, nth i seen false = true -> lo <= Rabs (fst (line i)) <= hi /\ Rabs (snd (line i)) <= b) ->
  exists good, (forall row, In row (possible_rows (em_cats m) seen) -> good row = true -> (exists x, best_score m prior row x) /\ forall x, best_score m prior row x -> Rabs (x - theta) <= eps) /\
    1 - delta < chance_at (em_cats m) p seen theta good.
Proof.
  intros He Hlo Hd Hp. destruct (lines_rise theta eps lo hi b He Hlo) as (kappa & Hk & HR). destruct (many_items theta eps hi kappa prior delta He Hk Hd Hp) as (n0 & H). exists n0. intros m p line seen Hl HS Hn HB. destruct (HR m p line seen Hl HB) as (w & Hw & E1 & W1 & W2). exact (H m p w seen Hw E1 HS Hn W1 W2).
Qed.
(** With only right answers there is no best ML score. *)
Lemma all_right_none m p line row : two_lines m p line -> legal_row (em_cats m) row -> (0 < length row)%nat -> (forall i, (i < length row)%nat -> answer (nth i row None) = Some 1%nat) -> (forall i, 0 < fst (line i)) -> forall x, ~ best_score m None row x.
Proof.
  intros Hl HL Hn HA Hs x HB. destruct (lines_weights m p line Hl) as (w & Hw & E1 & T2 & Ew & EM). pose proof (weights_library m p w Hw) as Hm. destruct (target_concave None use_ml) as (v & _ & Hv & HC). rewrite (Hv eq_refl) in HC. destruct (HC m p w row Hw E1 HL) as [_ C2].
  pose proof (proj1 (best_target m p None row x Hm E1 HL) HB (x + 1)) as B. specialize (C2 (x + 1) x).
  assert (P : 0 < S_Suff.total w row 0 - expected_total p w (em_cats m) row [x + 1] 0).
  { unfold S_Suff.total, expected_total. rewrite (rsum_mapi (None : cell)), <- sumn_minus. destruct HL as [LR _]. apply (sumn_pos (length row)); [exact Hn|]. intros i Hi. rewrite HA by exact Hi. fold (mean_item p w (em_cats m) i [x + 1]). rewrite EM, Ew. destruct (Nat.ltb_spec i (length (em_cats m))); [|lia]. cbn [INR]. specialize (Hs i). pose proof (logistic_bounds (fst (line i) * (x + 1) + snd (line i))). nra. }
  nra.
Qed.
