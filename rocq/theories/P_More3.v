(** EAP scores from many items. *)
From Verif Require Import Base BaseFacts RBase RFacts M_Data M_Logit M_Lik M_Est M_Opt P_Logit P_Logit2 P_Logit4 P_Est1 P_Est2 P_Opt1 P_Opt2 P_Opt3 P_Opt4 P_Max1 P_Suff1 P_Suff2 P_Scoreq S_Logit S_Lik S_Est S_Item S_Opt S_Suff S_Scoreq S_True S_Cons S_More P_True1 P_True2 P_True3 P_Cons1 P_Cons2 P_More1 P_More2.
Import List.
Local Open Scope R_scope.

(** ** A concave function beyond its peak *)
Lemma fall_right (h h' : R -> R) theta g x d s : 0 < d -> 0 <= s -> (forall x y, h y <= h x + h' x * (y - x)) -> h' theta <= s -> h' (theta + d / 2) <= - (3 * s) -> theta <= g -> g + d <= x -> h x <= h g - s * d.
Proof.
  intros Hd Hs HC H0 H1 Hg Hx. assert (MO : forall a b, a < b -> h' b <= h' a) by (intros a b Hab; pose proof (HC a b); pose proof (HC b a); nra). set (z := theta + d / 2) in *.
  destruct (Rle_lt_dec z g) as [L|L].
  - assert (h' g <= - (3 * s)) by (destruct L as [L| <-]; [pose proof (MO z g L); lra|exact H1]). pose proof (HC g x). assert (h' g * (x - g) <= - (3 * s) * d) by nra. nra.
  - assert (h' g <= s) by (destruct Hg as [L2| <-]; [pose proof (MO theta g L2); lra|exact H0]). pose proof (HC g z). pose proof (HC z x). assert (h' g * (z - g) <= s * (d / 2)) by (unfold z in *; nra). assert (h' z * (x - z) <= - (3 * s) * (d / 2)) by (unfold z in *; nra). lra.
Qed.
Lemma fall_left (h h' : R -> R) theta g x d s : 0 < d -> 0 <= s -> (forall x y, h y <= h x + h' x * (y - x)) -> - s <= h' theta -> 3 * s <= h' (theta - d / 2) -> g <= theta -> x <= g - d -> h x <= h g - s * d.
Proof.
  intros Hd Hs HC H0 H1 Hg Hx. pose proof (fall_right (fun y => h (- y)) (fun y => - h' (- y)) (- theta) (- g) (- x) d s Hd Hs) as F. cbv beta in F. rewrite !Ropp_involutive in F. apply F; try lra.
  - intros a b. pose proof (HC (- a) (- b)). lra.
  - replace (- (- theta + d / 2)) with (theta - d / 2) by ring. lra.
Qed.

(** ** Averages over a grid *)
Lemma grid_mean {A} (l : list A) (v W : A -> R) b c C : (forall y, In y l -> 0 < W y) -> In b l -> 0 <= C -> (forall y, In y l -> v y - c <= 0 \/ (v y - c) * W y <= C * W b) -> over l (fun y => v y * W y) / over l W <= c + INR (length l) * C.
Proof.
  intros HW Hb HC H. assert (PT : 0 < over l W) by (pose proof (over_term l W b (fun y Hy => Rlt_le _ _ (HW y Hy)) Hb); specialize (HW b Hb); lra). pose proof (over_term l W b (fun y Hy => Rlt_le _ _ (HW y Hy)) Hb) as TB.
  apply (Rmult_le_reg_r (over l W)); [exact PT|]. unfold Rdiv. rewrite Rmult_assoc, Rinv_l, Rmult_1_r by lra.
  apply Rle_trans with (c * over l W + over l (fun _ => C * W b)).
  - rewrite <- over_scal, <- over_plus. apply over_le. intros y Hy. pose proof (HW y Hy). pose proof (HW b Hb). assert (0 <= C * W b) by (apply Rmult_le_pos; lra). destruct (H y Hy) as [L|L]; nra.
  - rewrite over_const. assert (C * W b <= C * over l W) by (apply Rmult_le_compat_l; lra). pose proof (pos_INR (length l)). nra.
Qed.
(** The grid points outside [gl, gr] stop counting. *)
Lemma grid_between (grid : list (list R)) (q : list R -> R) (lik : list R -> R) gl gr rho M :
  (forall t, In t grid -> 0 < q t) -> (forall t, In t grid -> 0 < lik t) -> In [gl] grid -> In [gr] grid -> gl <= gr -> 0 <= rho ->
  (forall t, In t grid -> gl <= nth 0 t 0 <= gr \/ (gr < nth 0 t 0 /\ lik t <= rho * lik [gr]) \/ (nth 0 t 0 < gl /\ lik t <= rho * lik [gl])) ->
  (forall t u, In t grid -> In u grid -> Rabs (nth 0 t 0 - nth 0 u 0) * q t <= M * q u) -> 0 <= M ->
  let mean := rsum (map (fun t => nth 0 t 0 * (q t * lik t)) grid) / rsum (map (fun t => q t * lik t) grid) in
  gl - INR (length grid) * (M * rho) <= mean <= gr + INR (length grid) * (M * rho).
Proof.
  intros Hq Hlik Hl Hr GLR Hrho HG HM PM mean. assert (PW : forall t, In t grid -> 0 < q t * lik t) by (intros; apply Rmult_lt_0_compat; auto). assert (MR : 0 <= M * rho) by (apply Rmult_le_pos; lra).
  split.
  - pose proof (grid_mean grid (fun t => - nth 0 t 0) (fun t => q t * lik t) [gl] (- gl) (M * rho) PW Hl MR) as G. assert (EQ : over grid (fun t => - nth 0 t 0 * (q t * lik t)) / over grid (fun t => q t * lik t) = - mean) by (unfold mean; change (rsum (map (fun t => nth 0 t 0 * (q t * lik t)) grid)) with (over grid (fun t => nth 0 t 0 * (q t * lik t))); rewrite (over_ext _ _ (fun t => (-1) * (nth 0 t 0 * (q t * lik t)))) by (intros; ring); rewrite over_scal; unfold over; lra). cbv beta in G. rewrite EQ in G.
    assert (- mean <= - gl + INR (length grid) * (M * rho)); [apply G; clear G EQ|lra]. intros t Ht. destruct (HG t Ht) as [[L _]|[[L _]|[L LK]]]; [left; lra|left; lra|right].
    specialize (HM t [gl] Ht Hl). cbn [nth] in HM. replace (- nth 0 t 0 - - gl) with (Rabs (nth 0 t 0 - gl)) by (rewrite Rabs_left by lra; ring). specialize (Hlik t Ht).
    apply Rle_trans with ((M * q [gl]) * (rho * lik [gl])); [|right; ring]. replace (Rabs (nth 0 t 0 - gl) * (q t * lik t)) with ((Rabs (nth 0 t 0 - gl) * q t) * lik t) by ring. apply Rmult_le_compat; [apply Rmult_le_pos; [apply Rabs_pos|apply Rlt_le, Hq, Ht]|lra|exact HM|exact LK].
  - apply (grid_mean grid (fun t => nth 0 t 0) (fun t => q t * lik t) [gr] gr (M * rho) PW Hr MR). intros t Ht. destruct (HG t Ht) as [[_ L]|[[L LK]|[L _]]]; [left; lra|right|left; lra].
    specialize (HM t [gr] Ht Hr). cbn [nth] in HM. replace (nth 0 t 0 - gr) with (Rabs (nth 0 t 0 - gr)) by (rewrite Rabs_right by lra; ring). specialize (Hlik t Ht).
    apply Rle_trans with ((M * q [gr]) * (rho * lik [gr])); [|right; ring]. replace (Rabs (nth 0 t 0 - gr) * (q t * lik t)) with ((Rabs (nth 0 t 0 - gr) * q t) * lik t) by ring. apply Rmult_le_compat; [apply Rmult_le_pos; [apply Rabs_pos|apply Rlt_le, Hq, Ht]|lra|exact HM|exact LK].
Qed.
Lemma prior_bound (grid : list (list R)) (q : list R -> R) : (forall t, In t grid -> 0 < q t) -> exists M, 0 <= M /\ forall t u, In t grid -> In u grid -> Rabs (nth 0 t 0 - nth 0 u 0) * q t <= M * q u.
Proof.
  intro Hq. set (F := fun t u => Rabs (nth 0 t 0 - nth 0 u 0) * q t / q u). assert (N : forall t u, In t grid -> In u grid -> 0 <= F t u) by (intros; unfold F, Rdiv; repeat apply Rmult_le_pos; [apply Rabs_pos|apply Rlt_le; auto|apply Rlt_le, Rinv_0_lt_compat; auto]).
  exists (over grid (fun t => over grid (F t))). split; [apply over_nonneg; intros t Ht; apply over_nonneg; intros u Hu; now apply N|]. intros t u Ht Hu.
  assert (F t u <= over grid (fun t => over grid (F t))) by (apply Rle_trans with (over grid (F t)); [apply (over_term grid (F t) u); auto|apply (over_term grid (fun t => over grid (F t)) t); [intros y Hy; apply over_nonneg; auto|exact Ht]]).
  replace (Rabs (nth 0 t 0 - nth 0 u 0) * q t) with (F t u * q u) by (unfold F; field; specialize (Hq u Hu); lra). apply Rmult_le_compat_r; [apply Rlt_le; auto|assumption].
Qed.
Lemma small_tail K a eps : 0 <= K -> 0 < a -> 0 < eps -> exists n2, forall n, (n2 <= n)%nat -> K * exp (- (INR n * a)) <= eps.
Proof.
  intros HK Ha He. destruct (archimed (K / (a * eps))) as [A _]. set (N := Z.to_nat (up (K / (a * eps)))). exists N. intros n Hn. assert (PA : 0 < a * eps) by nra. assert (Q : 0 <= K / (a * eps)) by (apply Rmult_le_pos; [lra|apply Rlt_le, Rinv_0_lt_compat, PA]).
  assert (HN : K / (a * eps) < INR n). { apply Rlt_le_trans with (INR N); [|now apply le_INR]. unfold N. rewrite INR_IZR_INZ, Z2Nat.id; [lra|]. apply le_IZR. cbn. lra. }
  apply (Rmult_lt_compat_r (a * eps)) in HN; [|exact PA]. unfold Rdiv in HN. rewrite Rmult_assoc, Rinv_l, Rmult_1_r in HN by lra. rewrite exp_Ropp. pose proof (exp_pos (INR n * a)) as PE. apply (Rmult_le_reg_r (exp (INR n * a))); [exact PE|]. rewrite Rmult_assoc, Rinv_l, Rmult_1_r by lra.
  assert (INR n * a <= exp (INR n * a)). { destruct (Req_dec (INR n * a) 0) as [E|E]; [rewrite E, exp_0; lra|]. pose proof (exp_ineq1 _ E). lra. } nra.
Qed.

(** ** The posterior mean *)
Lemma many_items_mean theta d eps hi kappa delta (grid : list (list R)) (q : list R -> R) gl gr : 0 < d -> 0 < eps -> 0 < kappa -> 0 < delta ->
  (forall t, In t grid -> 0 < q t /\ t = [nth 0 t 0]) -> In [gl] grid -> In [gr] grid -> gl <= theta <= gr -> (forall t, In t grid -> gl <= nth 0 t 0 <= gr \/ gr + d <= nth 0 t 0 \/ nth 0 t 0 <= gl - d) -> exists n0, forall m p w seen,
  weights_of m p w -> em_lv m = 1%nat -> length seen = length (em_cats m) -> (n0 <= answered seen)%nat ->
  (forall i k, nth i seen false = true -> (k < nth i (em_cats m) O)%nat -> Rabs (w i k 0%nat) <= hi) ->
  (forall i, (i < length (em_cats m))%nat -> nth i seen false = true -> mean_item p w (em_cats m) i [theta - d / 2] + kappa <= mean_item p w (em_cats m) i [theta] /\ mean_item p w (em_cats m) i [theta] + kappa <= mean_item p w (em_cats m) i [theta + d / 2]) ->
  exists good, (forall row, In row (possible_rows (em_cats m) seen) -> good row = true -> gl - eps <= posterior_mean p grid q row 0 <= gr + eps) /\
    1 - delta < chance_at (em_cats m) p seen theta good.
Proof.
  intros Hd He Hk Hde HQ Hgl Hgr Hth HG. destruct (prior_bound grid q (fun t Ht => proj1 (HQ t Ht))) as (M & PM & HM). destruct (items_near theta hi (kappa / 4) delta ltac:(lra) Hde) as (n1 & HN).
  set (K := INR (length grid) * M). assert (PK : 0 <= K) by (apply Rmult_le_pos; [apply pos_INR|exact PM]). destruct (small_tail K (kappa / 4 * d) eps PK ltac:(apply Rmult_lt_0_compat; lra) He) as (n2 & Hn2).
  exists (Nat.max n1 n2). intros m p w seen Hw E1 HS Hn HB HI. pose proof (weights_library m p w Hw) as Hm. set (cats := em_cats m) in *. set (n := INR (answered seen)).
  eexists. split; [|exact (HN m p w seen Hw HS ltac:(lia) HB)]. cbv beta. intros row Hin HGd. fold cats n in HGd. destruct (Rlt_dec _ _) as [HD|]; [clear HGd|discriminate]. pose proof (rows_legal cats seen row HS Hin) as HL.
  destruct (target_concave None use_ml) as (v & _ & Hv & HC). rewrite (Hv eq_refl) in HC. destruct (HC m p w row Hw E1 HL) as [_ C2]. rewrite (centred_total p w cats seen row [theta] Hin HS HL) in HD.
  pose proof (expected_rise p w cats seen row [theta - d / 2] [theta] kappa Hin HS HL (fun i Hi Hs => proj1 (HI i Hi Hs))) as R1. pose proof (expected_rise p w cats seen row [theta] [theta + d / 2] kappa Hin HS HL (fun i Hi Hs => proj2 (HI i Hi Hs))) as R2. fold n in R1, R2. fold cats in C2.
  set (h := fun x => row_target p None row [x]) in *. set (h' := fun x => S_Suff.total w row 0 - expected_total p w cats row [x] 0 - 0 * x). set (s := n * (kappa / 4)). assert (Ps : 0 <= s) by (unfold s, n; apply Rmult_le_pos; [apply pos_INR|lra]).
  assert (HD' : - s < S_Suff.total w row 0 - expected_total p w cats row [theta] 0 < s) by (fold s in HD; unfold Rabs in HD; destruct (Rcase_abs _) in HD; lra).
  assert (FR : forall x, gr + d <= x -> h x <= h gr - s * d) by (intros x Hx; apply (fall_right h h' theta gr x d s Hd Ps C2); [unfold h'; lra|unfold h', s in *; lra|lra|exact Hx]).
  assert (FL : forall x, x <= gl - d -> h x <= h gl - s * d) by (intros x Hx; apply (fall_left h h' theta gl x d s Hd Ps C2); [unfold h'; lra|unfold h', s in *; lra|lra|exact Hx]).
  assert (PL : forall t, 0 < likelihood p t row) by (intro t; now apply (library_likelihood m p)).
  assert (CV : forall x y, h x <= h y - s * d -> likelihood p [x] row <= exp (- (s * d)) * likelihood p [y] row).
  { intros x y H. unfold h, row_target, prior_term in H. rewrite <- (exp_ln (likelihood p [x] row)), <- (exp_ln (likelihood p [y] row)) by apply PL. rewrite <- exp_plus. destruct (Rle_lt_or_eq_dec (ln (likelihood p [x] row)) (- (s * d) + ln (likelihood p [y] row)) ltac:(lra)) as [L|L]; [left; now apply exp_increasing|right; now rewrite L]. }
  pose proof (grid_between grid q (fun t => likelihood p t row) gl gr (exp (- (s * d))) M (fun t Ht => proj1 (HQ t Ht)) (fun t _ => PL t) Hgl Hgr ltac:(lra) (Rlt_le _ _ (exp_pos _))) as GB. cbv zeta in GB. fold (posterior_mean p grid q row 0) in GB.
  assert (SM : INR (length grid) * (M * exp (- (s * d))) <= eps). { specialize (Hn2 (answered seen) ltac:(lia)). replace (INR (length grid) * (M * exp (- (s * d)))) with (K * exp (- (INR (answered seen) * (kappa / 4 * d)))); [exact Hn2|]. unfold K. replace (s * d) with (INR (answered seen) * (kappa / 4 * d)) by (unfold s, n; ring). ring. }
  assert (GG : gl - INR (length grid) * (M * exp (- (s * d))) <= posterior_mean p grid q row 0 <= gr + INR (length grid) * (M * exp (- (s * d)))); [apply GB; auto|lra].
  intros t Ht. rewrite (proj2 (HQ t Ht)). cbn [nth]. destruct (HG t Ht) as [L|[L|L]]; [now left|right; left|right; right]; (split; [lra|]); apply CV; auto.
Qed.

(** ** Equally spaced grids *)
Lemma between_steps from step theta : forall n, (0 < n)%nat -> from <= theta <= from + INR n * step -> exists k, (k < n)%nat /\ from + INR k * step <= theta <= from + INR (S k) * step.
Proof.
  induction n as [|[|n] IH]; intros Hn Ht; [lia|exists 0%nat; split; [lia|]; cbn [INR] in *; lra|]. destruct (Rle_lt_dec theta (from + INR (S n) * step)) as [L|L]; [destruct (IH ltac:(lia) ltac:(lra)) as (k & Hk & Q); exists k; split; [lia|exact Q]|]. exists (S n). split; [lia|]. lra.
Qed.
Lemma product_one (l : list R) : M_CV.product [l] = map (fun x => [x]) l.
Proof. unfold M_CV.product. induction l as [|x l IH]; [reflexivity|]. cbn [flat_map map app] in *. now rewrite IH. Qed.
Lemma spaced_grid from upto g theta : (2 <= g)%nat -> from < upto -> from <= theta <= upto -> let step := (upto - from) / INR (g - 1) in let grid := M_CV.product [linspace from upto g] in
  0 < step /\ exists gl gr, In [gl] grid /\ In [gr] grid /\ gr = gl + step /\ gl <= theta <= gr /\ forall t, In t grid -> t = [nth 0 t 0] /\ (gl <= nth 0 t 0 <= gr \/ gr + step <= nth 0 t 0 \/ nth 0 t 0 <= gl - step).
Proof.
  intros Hg Hf Ht step grid. assert (PN : 0 < INR (g - 1)) by (apply lt_0_INR; lia). assert (PS : 0 < step) by (apply Rdiv_lt_0_compat; lra). split; [exact PS|].
  destruct (between_steps from step theta (g - 1) ltac:(lia)) as (k & Hk & K1 & K2); [replace (from + INR (g - 1) * step) with upto by (unfold step; field; lra); exact Ht|].
  exists (from + INR k * step), (from + INR (S k) * step). unfold grid. rewrite product_one. unfold linspace. rewrite map_map. fold step.
  split; [apply in_map_iff; exists k; split; [reflexivity|apply in_seq; lia]|]. split; [apply in_map_iff; exists (S k); split; [reflexivity|apply in_seq; lia]|]. split; [rewrite S_INR; ring|]. split; [lra|].
  intros t Hin. apply in_map_iff in Hin as (j & <- & Hj). split; [reflexivity|]. cbn [nth]. rewrite S_INR in *. destruct (le_lt_dec j k) as [L|L].
  - destruct (Nat.eq_dec j k) as [->|N]; [left; lra|]. right. right. assert (J : INR (S j) <= INR k) by (apply le_INR; lia). rewrite S_INR in J. nra.
  - destruct (Nat.eq_dec j (S k)) as [->|N]; [rewrite S_INR; left; lra|]. right. left. assert (J : INR (S (S k)) <= INR j) by (apply le_INR; lia). rewrite !S_INR in J. nra.
Qed.
