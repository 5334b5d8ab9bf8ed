(** Proportions near the truth make every good fit near the truth. *)
From Verif Require Import Base BaseFacts RBase RFacts M_Data M_Logit M_Lik M_Est M_Opt M_Jml P_Logit P_Logit2 P_Logit3 P_Est1 P_Est2 P_Opt3 P_Max1 S_Logit S_Lik S_Est S_Item S_True S_Cons P_True1 P_True2 P_True3.
Import List.
Local Open Scope R_scope.

Lemma over_nonneg {A} (l : list A) f : (forall x, In x l -> 0 <= f x) -> 0 <= over l f.
Proof. unfold over. induction l as [|x l IH]; intro H; [cbn; lra|]. cbn [map rsum]. pose proof (H x (or_introl eq_refl)). assert (0 <= rsum (map f l)) by (apply IH; intros; apply H; now right). lra. Qed.
Lemma over_term {A} (l : list A) f x : (forall x, In x l -> 0 <= f x) -> In x l -> f x <= over l f.
Proof.
  unfold over. induction l as [|y l IH]; intros H Hx; [destruct Hx|]. cbn [map rsum]. assert (0 <= rsum (map f l)) by (apply (over_nonneg l f); intros; apply H; now right). pose proof (H y (or_introl eq_refl)). destruct Hx as [->|Hx]; [lra|]. assert (f x <= rsum (map f l)) by (apply IH; [intros; apply H; now right|exact Hx]). lra.
Qed.
Lemma over_opp {A} (l : list A) f : over l (fun x => - f x) = - over l f.
Proof. rewrite (over_ext l _ (fun x => -1 * f x)) by (intros; ring). rewrite over_scal. ring. Qed.
Lemma over_minus {A} (l : list A) f g : over l (fun x => f x - g x) = over l f - over l g.
Proof. unfold Rminus. rewrite over_plus, over_opp. reflexivity. Qed.

(** Distance of square roots, and relative entropy. *)
Lemma root_term a b : 0 <= a -> 0 < b -> (sqrt a - sqrt b) * (sqrt a - sqrt b) + (a - b) <= a * (ln a - ln b).
Proof.
  intros Ha Hb. pose proof (sqrt_sqrt a Ha) as Sa. pose proof (sqrt_sqrt b (Rlt_le _ _ Hb)) as Sb. pose proof (sqrt_lt_R0 b Hb) as Pb. destruct (Req_dec a 0) as [->|Na].
  - rewrite sqrt_0 in *. nra.
  - assert (Pa : 0 < a) by lra. pose proof (sqrt_lt_R0 a Pa) as Pra. set (x := sqrt a) in *. set (y := sqrt b) in *.
    assert (La : ln a = 2 * ln x) by (rewrite <- Sa, ln_mult by assumption; ring). assert (Lb : ln b = 2 * ln y) by (rewrite <- Sb, ln_mult by assumption; ring).
    assert (Q : 0 < y / x) by (apply Rdiv_lt_0_compat; assumption). pose proof (proj1 (ln_below _ Q)) as L. unfold Rdiv in L. rewrite ln_mult, ln_Rinv in L by (try assumption; now apply Rinv_0_lt_compat).
    assert (M : a * (ln y + - ln x) <= a * (y * / x - 1)) by (apply Rmult_le_compat_l; lra). assert (E : a * (y * / x - 1) = x * y - x * x) by (rewrite <- Sa; field; lra). rewrite E in M. rewrite La, Lb. nra.
Qed.
Lemma chi_term a b : 0 <= a -> 0 < b -> a * (ln a - ln b) <= (a - b) * (a - b) / b + (a - b).
Proof.
  intros Ha Hb. assert (E : (a - b) * (a - b) / b + (a - b) = a * (a / b - 1)) by (field; lra). rewrite E. destruct (Req_dec a 0) as [->|Na]; [lra|]. apply Rmult_le_compat_l; [exact Ha|].
  assert (Q : 0 < a / b) by (apply Rdiv_lt_0_compat; lra). pose proof (proj1 (ln_below _ Q)) as L. unfold Rdiv in L at 1. rewrite ln_mult, ln_Rinv in L by (try lra; now apply Rinv_0_lt_compat). lra.
Qed.
(** [h] the observed shares, [q] the truth, [b] a fit that is at least as good. *)
Lemma fit_near {A} (l : list A) (h q b : A -> R) eta :
  (forall x, In x l -> 0 <= h x) -> (forall x, In x l -> 0 < q x) -> (forall x, In x l -> 0 < b x) -> over l h = 1 -> over l q = 1 -> over l b = 1 ->
  over l (fun x => h x * ln (q x)) <= over l (fun x => h x * ln (b x)) -> (forall x, In x l -> Rabs (h x - q x) <= eta) -> 0 <= eta ->
  forall x, In x l -> Rabs (b x - q x) <= eta * (1 + 2 * sqrt (over l (fun x => / q x))).
Proof.
  intros Ph Pq Pb Sh Sq Sb HB HN He x Hx. set (C := over l (fun x => / q x)). assert (PC : 0 <= C) by (apply over_nonneg; intros y Hy; apply Rlt_le, Rinv_0_lt_compat, Pq, Hy).
  assert (H1 : over l (fun x => (sqrt (h x) - sqrt (b x)) * (sqrt (h x) - sqrt (b x))) <= over l (fun x => h x * (ln (h x) - ln (b x)))).
  { apply Rle_trans with (over l (fun x => (sqrt (h x) - sqrt (b x)) * (sqrt (h x) - sqrt (b x)) + (h x - b x))); [rewrite over_plus, over_minus, Sh, Sb; lra|]. apply over_le. intros y Hy. apply root_term; auto. }
  assert (H2 : over l (fun x => h x * (ln (h x) - ln (q x))) <= eta * eta * C).
  { apply Rle_trans with (over l (fun x => (h x - q x) * (h x - q x) / q x + (h x - q x))); [apply over_le; intros y Hy; apply chi_term; auto|]. rewrite over_plus, over_minus, Sh, Sq. unfold C. rewrite <- over_scal.
    assert (over l (fun x => (h x - q x) * (h x - q x) / q x) <= over l (fun x => eta * eta * / q x)); [|lra]. apply over_le. intros y Hy. unfold Rdiv. apply Rmult_le_compat_r; [apply Rlt_le, Rinv_0_lt_compat; auto|]. specialize (HN y Hy). unfold Rabs in HN; destruct (Rcase_abs (h y - q y)); nra. }
  assert (H3 : over l (fun x => h x * (ln (h x) - ln (b x))) <= over l (fun x => h x * (ln (h x) - ln (q x)))).
  { rewrite (over_ext l (fun x => h x * (ln (h x) - ln (b x))) (fun x => h x * ln (h x) - h x * ln (b x))) by (intros; ring). rewrite (over_ext l (fun x => h x * (ln (h x) - ln (q x))) (fun x => h x * ln (h x) - h x * ln (q x))) by (intros; ring). rewrite !over_minus. lra. }
  pose proof (over_term l (fun x => (sqrt (h x) - sqrt (b x)) * (sqrt (h x) - sqrt (b x))) x (fun y _ => Rle_0_sqr (sqrt (h y) - sqrt (b y))) Hx) as T. cbv beta in T.
  assert (D : Rabs (sqrt (h x) - sqrt (b x)) <= eta * sqrt C).
  { apply Rsqr_incr_0_var; [|apply Rmult_le_pos; [exact He|apply sqrt_pos]]. rewrite <- Rsqr_abs. unfold Rsqr. replace (eta * sqrt C * (eta * sqrt C)) with (eta * eta * (sqrt C * sqrt C)) by ring. rewrite sqrt_sqrt by exact PC. lra. }
  assert (LE1 : forall f : A -> R, (forall y, In y l -> 0 <= f y) -> over l f = 1 -> 0 <= sqrt (f x) <= 1).
  { intros f Pf Sf. split; [apply sqrt_pos|]. rewrite <- sqrt_1. apply sqrt_le_1; [now apply Pf|lra|]. rewrite <- Sf. now apply over_term. }
  destruct (LE1 h Ph Sh) as [A1 A2]. destruct (LE1 b (fun y Hy => Rlt_le _ _ (Pb y Hy)) Sb) as [B1 B2].
  assert (E : Rabs (b x - h x) <= 2 * (eta * sqrt C)).
  { rewrite <- (sqrt_sqrt (b x) (Rlt_le _ _ (Pb x Hx))), <- (sqrt_sqrt (h x) (Ph x Hx)). replace (sqrt (b x) * sqrt (b x) - sqrt (h x) * sqrt (h x)) with ((sqrt (b x) + sqrt (h x)) * - (sqrt (h x) - sqrt (b x))) by ring. rewrite Rabs_mult, Rabs_Ropp, (Rabs_pos_eq (sqrt (b x) + sqrt (h x))) by lra. apply Rmult_le_compat; [lra|apply Rabs_pos|lra|exact D]. }
  specialize (HN x Hx). replace (b x - q x) with ((b x - h x) + (h x - q x)) by ring. eapply Rle_trans; [apply Rabs_triang|]. lra.
Qed.

(** ** The fit *)
Lemma times_nonneg data row : 0 <= INR (times data row). Proof. apply pos_INR. Qed.
Lemma same_rows cats s N data : In data (possible_data cats (repeat s N)) -> length data = N /\ Forall (fun row => In row (possible_rows cats s)) data.
Proof.
  intro H. destruct (tables_in _ _ _ H) as [L1 L2]. rewrite repeat_length in L1, L2. split; [exact L1|]. apply Forall_forall. intros row Hr. apply (In_nth _ _ []) in Hr as (r & Hr & <-). specialize (L2 r ltac:(lia)). rewrite (nth_error_nth _ _ [] (nth_error_repeat_lt s N r ltac:(lia))) in L2. exact L2.
Qed.
Lemma data_share cats s data : length s = length cats -> data <> [] -> Forall (fun row => In row (possible_rows cats s)) data -> over (possible_rows cats s) (fun row => INR (times data row) / INR (length data)) = 1.
Proof.
  intros HS HD HF. assert (HN : 0 < INR (length data)) by (apply lt_0_INR; destruct data; [congruence|cbn; lia]). rewrite (over_ext _ _ (fun row => / INR (length data) * (INR (times data row) * 1))) by (intros; unfold Rdiv; ring). rewrite over_scal, <- (over_times cats s data (fun _ => 1) HS HF).
  assert (E : over data (fun _ => 1) = INR (length data)) by (clear; unfold over; induction data as [|x l IH]; [reflexivity|]; cbn [map rsum length]; rewrite IH, S_INR; ring). rewrite E. field. lra.
Qed.
Lemma close_fit m p points weights m' p' points' weights' s data eta : library_model m p -> library_model m' p' -> em_cats m' = em_cats m -> rule (em_lv m) points weights -> rule (em_lv m') points' weights' -> rsum weights' = rsum weights ->
  length s = length (em_cats m) -> data <> [] -> Forall (fun row => In row (possible_rows (em_cats m) s)) data -> 0 <= eta ->
  (forall row, In row (possible_rows (em_cats m) s) -> Rabs (INR (times data row) / INR (length data) - marginal_likelihood p points weights row / rsum weights) <= eta) ->
  let loss m points weights := mml_loss m points (map (fun w => Some (Fin (ln w))) weights) (Wide (length (em_cats m)) data) in
  not_worse (loss m' points' weights') (loss m points weights) ->
  forall row, In row (possible_rows (em_cats m) s) -> Rabs (marginal_likelihood p' points' weights' row / rsum weights - marginal_likelihood p points weights row / rsum weights) <=
    eta * (1 + 2 * sqrt (over (possible_rows (em_cats m) s) (fun row => / (marginal_likelihood p points weights row / rsum weights)))).
Proof.
  intros Hm Hm' EC HR HR' EW HS HD HF He HN loss (x & y & EX & EY & Hxy). set (W := rsum weights) in *. pose proof (rule_total _ _ _ HR) as HW. fold W in HW.
  assert (LD : legal_data (em_cats m) data) by (apply Forall_forall; intros row Hr; rewrite Forall_forall in HF; apply (rows_legal _ s); auto). assert (HL : 0 < INR (length data)) by (apply lt_0_INR; destruct data; [congruence|cbn; lia]).
  assert (PM : forall row, In row (possible_rows (em_cats m) s) -> 0 < marginal_likelihood p points weights row) by (intros row Hrow; apply (marginal_positive m); auto; now apply (rows_legal _ s)). assert (PM' : forall row, In row (possible_rows (em_cats m) s) -> 0 < marginal_likelihood p' points' weights' row) by (intros row Hrow; apply (marginal_positive m'); auto; rewrite EC; now apply (rows_legal _ s)).
  apply (fit_near (possible_rows (em_cats m) s) (fun row => INR (times data row) / INR (length data)) (fun row => marginal_likelihood p points weights row / W) (fun row => marginal_likelihood p' points' weights' row / W) eta); auto.
  - intros row _. apply Rmult_le_pos; [apply times_nonneg|apply Rlt_le, Rinv_0_lt_compat, HL].
  - intros row Hrow. apply Rdiv_lt_0_compat; auto.
  - intros row Hrow. apply Rdiv_lt_0_compat; auto.
  - now apply data_share.
  - now apply share_total.
  - rewrite <- EW, <- EC. apply share_total; auto. now rewrite EC.
  - assert (V : forall M : list cell -> R, (forall row, In row (possible_rows (em_cats m) s) -> 0 < M row) -> over (possible_rows (em_cats m) s) (fun row => INR (times data row) / INR (length data) * ln (M row / W)) = - / INR (length data) * rsum (mapi (fun _ row => - ln (M row)) data) - ln W).
    { intros M HM. rewrite (rsum_mapi []). assert (E : sumn (length data) (fun r => - ln (M (nth r data []))) = over data (fun row => - ln (M row))) by (unfold over; rewrite rsum_nth, map_length; apply sumn_ext; intros r Hr; rewrite (nth_indep _ 0 (- ln (M []))) by (now rewrite map_length); now rewrite (map_nth (fun row => - ln (M row)))). rewrite E, (over_times _ s data _ HS HF).
      replace (ln W) with (ln W * over (possible_rows (em_cats m) s) (fun row => INR (times data row) / INR (length data))) by (rewrite data_share by assumption; ring). rewrite <- !over_scal, <- over_minus. apply over_ext. intros row Hrow. specialize (HM row Hrow). replace (ln (M row / W)) with (ln (M row) - ln W) by (unfold Rdiv; rewrite ln_mult, ln_Rinv by (auto using Rinv_0_lt_compat); ring). field. lra. }
    rewrite !V by assumption. unfold loss in EX, EY. rewrite (mml_row_value m' p') in EX by (auto; now rewrite EC). rewrite (mml_row_value m p) in EY by auto. injection EX as EX. injection EY as EY. rewrite EX, EY. apply Rplus_le_compat_r. rewrite !Ropp_mult_distr_l_reverse. apply Ropp_le_contravar, Rmult_le_compat_l; [apply Rlt_le, Rinv_0_lt_compat, HL|exact Hxy].
Qed.
