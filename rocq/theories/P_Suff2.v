(** Monotone ratios of the models, tilted means, the EAP scores. *)
From Verif Require Import Base BaseFacts RBase RFacts M_Data M_Logit M_Lik M_Est P_Logit P_Logit2 P_Est1 P_Est2 P_Est3 P_Est4 P_Est5 P_Est6 P_Opt2 P_Opt3 P_Max1 P_Max3 P_Suff1 S_Logit S_Lik S_Est S_Suff.
Import List.
Local Open Scope R_scope.

(** ** Two categories *)
Lemma ordered_two (f : R -> R) q : (forall x, 0 < f x < 1) -> (forall x y, x < y -> f x < f y) -> (forall k x, (k < 2)%nat -> q k x = if (k =? 1)%nat then f x else 1 - f x) -> ordered_item 2 q.
Proof.
  intros HB HM E. split; [|split].
  - intros k x Hk. rewrite E by exact Hk. pose proof (HB x). destruct (k =? 1)%nat; lra.
  - intro x. cbn [sumn]. rewrite !E by lia. cbn [Nat.eqb]. lra.
  - intros k k' x y H1 H2 Hxy. replace k with 0%nat by lia. replace k' with 1%nat by lia. rewrite !E by lia. cbn [Nat.eqb]. pose proof (HM x y Hxy). nra.
Qed.
(** ** Softmax *)
Lemma ordered_soft K (c s : nat -> R) q : (1 <= K)%nat -> (forall k k', (k < k')%nat -> (k' < K)%nat -> s k < s k') -> (forall k x, (k < K)%nat -> q k x = category_probability K (fun k => s k * x + c k) k) -> ordered_item K q.
Proof.
  intros HK HS E. assert (HZ : forall x, 0 < sumn K (fun j => exp (s j * x + c j))) by (intro x; apply sumn_pos; [lia|intros; apply exp_pos]).
  split; [|split].
  - intros k x Hk. rewrite E by exact Hk. unfold category_probability. apply Rdiv_lt_0_compat; [apply exp_pos|apply HZ].
  - intro x. rewrite (sumn_ext K _ (fun k => exp (s k * x + c k) / sumn K (fun j => exp (s j * x + c j)))) by (intros k Hk; now rewrite E). rewrite sumn_div. field. pose proof (HZ x). lra.
  - intros k k' x y H1 H2 Hxy. rewrite !E by lia. unfold category_probability. set (X := sumn K (fun j => exp (s j * x + c j))). set (Y := sumn K (fun j => exp (s j * y + c j))). assert (0 < X) by apply HZ. assert (0 < Y) by apply HZ.
    replace (exp (s k' * x + c k') / X * (exp (s k * y + c k) / Y)) with (exp (s k' * x + c k' + (s k * y + c k)) / (X * Y)) by (rewrite exp_plus; field; lra).
    replace (exp (s k * x + c k) / X * (exp (s k' * y + c k') / Y)) with (exp (s k * x + c k + (s k' * y + c k')) / (X * Y)) by (rewrite exp_plus; field; lra).
    apply Rmult_lt_compat_r; [apply Rinv_0_lt_compat; now apply Rmult_lt_0_compat|]. apply exp_increasing. specialize (HS k k' H1 H2). nra.
Qed.
(** ** Graded *)
Lemma logistic_ratio x y b b' : x < y -> b' < b -> logistic (x + b') * logistic (y + b) < logistic (x + b) * logistic (y + b').
Proof.
  intros Hxy Hb. unfold logistic. rewrite !Ropp_plus_distr, !exp_plus.
  set (X := exp (- x)). set (Y := exp (- y)). set (B := exp (- b)). set (B' := exp (- b')).
  assert (0 < X) by apply exp_pos. assert (0 < Y) by apply exp_pos. assert (0 < B) by apply exp_pos. assert (0 < B') by apply exp_pos.
  assert (Y < X) by (apply exp_increasing; lra). assert (B < B') by (apply exp_increasing; lra).
  assert (0 < X * B) by now apply Rmult_lt_0_compat. assert (0 < Y * B) by now apply Rmult_lt_0_compat. assert (0 < X * B') by now apply Rmult_lt_0_compat. assert (0 < Y * B') by now apply Rmult_lt_0_compat.
  unfold Rdiv. rewrite ?Rmult_1_l. rewrite <- !Rinv_mult. apply Rinv_lt_contravar; [repeat apply Rmult_lt_0_compat; lra|]. nra.
Qed.
Lemma logistic_ratio_compl x y b b' : x < y -> b' < b -> (1 - logistic (x + b')) * (1 - logistic (y + b)) < (1 - logistic (x + b)) * (1 - logistic (y + b')).
Proof.
  intros Hxy Hb. rewrite !logistic_opp. pose proof (logistic_ratio (- y) (- x) (- b') (- b) ltac:(lra) ltac:(lra)) as H.
  replace (- (x + b')) with (- x + - b') by ring. replace (- (x + b)) with (- x + - b) by ring. replace (- (y + b')) with (- y + - b') by ring. replace (- (y + b)) with (- y + - b) by ring. lra.
Qed.
Section Graded.
  Variables (K : nat) (c : nat -> R).
  Hypotheses (HK : (1 <= K)%nat) (Hc : forall j, (1 <= j)%nat -> (S j < K)%nat -> c (S j) < c j).
  Let G (k : nat) (z : R) : R := geq_probability K (fun j => z + c j) k.
  Lemma c_decreasing j j' : (1 <= j)%nat -> (j < j')%nat -> (j' < K)%nat -> c j' < c j.
  Proof using HK Hc. intros H1 H2. induction H2 as [|j' H2 IH]; intro H3; [now apply Hc|]. apply (Rlt_trans _ (c j')); [apply Hc; lia|apply IH; lia]. Qed.
  Lemma G_ratio k k' x y : (k < k')%nat -> (k' < K)%nat -> x < y -> G k' x * G k y < G k x * G k' y.
  Proof using HK Hc.
    intros H1 H2 Hxy. unfold G, geq_probability. destruct (Nat.eqb_spec k' 0); [lia|]. destruct (Nat.ltb_spec k' K); [|lia]. destruct (Nat.eqb_spec k 0) as [-> |Hk].
    - pose proof (logistic_incr (x + c k') (y + c k') ltac:(lra)). lra.
    - destruct (Nat.ltb_spec k K); [|lia]. apply logistic_ratio; [exact Hxy|apply c_decreasing; lia].
  Qed.
  Lemma G_ratio_compl k k' x y : (k < k')%nat -> (k' < K)%nat -> x < y -> (1 - G (S k') x) * (1 - G (S k) y) <= (1 - G (S k) x) * (1 - G (S k') y).
  Proof using HK Hc.
    intros H1 H2 Hxy. unfold G, geq_probability. cbn [Nat.eqb]. destruct (Nat.ltb_spec (S k) K); [|lia]. destruct (Nat.ltb_spec (S k') K).
    - left. apply logistic_ratio_compl; [exact Hxy|apply c_decreasing; lia].
    - pose proof (logistic_incr (x + c (S k)) (y + c (S k)) ltac:(lra)). lra.
  Qed.
  Lemma G_bounds k z : (k < K)%nat -> 0 < G k z /\ G (S k) z < 1.
  Proof using HK Hc.
    intro Hk. unfold G, geq_probability. cbn [Nat.eqb]. split.
    - destruct (k =? 0)%nat; [lra|]. destruct (Nat.ltb_spec k K); [|lia]. apply logistic_bounds.
    - destruct (S k <? K)%nat; [apply logistic_bounds|lra].
  Qed.
  Lemma G_product k : (k < K)%nat -> exists e, 0 < e /\ forall z, G k z - G (S k) z = e * (G k z * (1 - G (S k) z)).
  Proof using HK Hc.
    intro Hk. unfold G, geq_probability. cbn [Nat.eqb]. destruct (Nat.eqb_spec k 0) as [-> |H0]; [exists 1; split; [lra|]; intro z; ring|].
    destruct (Nat.ltb_spec k K); [|lia]. destruct (Nat.ltb_spec (S k) K) as [HS|]; [|exists 1; split; [lra|]; intro z; ring].
    pose proof (Hc k ltac:(lia) HS) as HD. exists (1 - exp (c (S k) - c k)). split; [pose proof (exp_increasing (c (S k) - c k) 0 ltac:(lra)) as HX; rewrite exp_0 in HX; lra|].
    intro z. rewrite logistic_compl. rewrite !logistic_exp. replace (z + c (S k)) with ((z + c k) + (c (S k) - c k)) by ring. rewrite (exp_plus (z + c k)). set (u := exp (z + c k)). set (r := exp (c (S k) - c k)). assert (0 < u) by apply exp_pos. assert (0 < r) by apply exp_pos. assert (0 < u * r) by now apply Rmult_lt_0_compat. field. split; lra.
  Qed.
  Lemma ordered_graded a q : 0 < a -> (forall k x, (k < K)%nat -> q k x = G k (a * x) - G (S k) (a * x)) -> ordered_item K q.
  Proof using HK Hc.
    intros Ha E. split; [|split].
    - intros k x Hk. rewrite E by exact Hk. destruct (G_product k Hk) as (e & He & ->). destruct (G_bounds k (a * x) Hk). apply Rmult_lt_0_compat; [exact He|apply Rmult_lt_0_compat; lra].
    - intro x. rewrite (sumn_ext K _ (fun k => G k (a * x) - G (S k) (a * x))) by (intros; now apply E).
      assert (T : forall n, sumn n (fun k => G k (a * x) - G (S k) (a * x)) = G 0 (a * x) - G n (a * x)) by (induction n as [|n IH]; cbn [sumn]; [ring|rewrite IH; ring]). rewrite T. unfold G, geq_probability. cbn [Nat.eqb]. destruct (Nat.eqb_spec K 0); [lia|]. rewrite Nat.ltb_irrefl. lra.
    - intros k k' x y H1 H2 Hxy. rewrite !E by lia. destruct (G_product k ltac:(lia)) as (e & He & F). destruct (G_product k' H2) as (e' & He' & F'). rewrite !F, !F'.
      assert (a * x < a * y) as Hz by nra. pose proof (G_ratio k k' _ _ H1 H2 Hz) as R1. pose proof (G_ratio_compl k k' _ _ H1 H2 Hz) as R2.
      destruct (G_bounds k (a * x) ltac:(lia)) as [P1 P2]. destruct (G_bounds k (a * y) ltac:(lia)) as [P3 P4]. destruct (G_bounds k' (a * x) H2) as [P5 P6]. destruct (G_bounds k' (a * y) H2) as [P7 P8].
      set (g1 := G k (a * x)) in *. set (g2 := G k (a * y)) in *. set (g3 := G k' (a * x)) in *. set (g4 := G k' (a * y)) in *. set (h1 := G (S k) (a * x)) in *. set (h2 := G (S k) (a * y)) in *. set (h3 := G (S k') (a * x)) in *. set (h4 := G (S k') (a * y)) in *.
      replace (e' * (g3 * (1 - h3)) * (e * (g2 * (1 - h2)))) with ((e * e') * ((g3 * g2) * ((1 - h3) * (1 - h2)))) by ring. replace (e * (g1 * (1 - h1)) * (e' * (g4 * (1 - h4)))) with ((e * e') * ((g1 * g4) * ((1 - h1) * (1 - h4)))) by ring.
      apply Rmult_lt_compat_l; [now apply Rmult_lt_0_compat|]. apply (Rlt_le_trans _ ((g1 * g4) * ((1 - h3) * (1 - h2)))); [apply Rmult_lt_compat_r; [apply Rmult_lt_0_compat; lra|exact R1]|apply Rmult_le_compat_l; [left; apply Rmult_lt_0_compat; lra|exact R2]].
  Qed.
End Graded.

(** ** The models *)
Lemma predictor_one a x : predictor 1 a [x] = a O * x.
Proof. unfold predictor. cbn [sumn nth]. ring. Qed.
Lemma cats_at cats i : Forall (fun K => (1 <= K)%nat) cats -> (i < length cats)%nat -> (1 <= nth i cats O)%nat.
Proof. intros H Hi. rewrite Forall_forall in H. apply H. now apply nth_In. Qed.
Lemma upward_library m p : upward m p -> library_model m p /\ em_lv m = 1%nat.
Proof. intros [nanl o Ho Hi|nanl o Ho Hi Hl Hs|nanl o Ho Hi Hl Hs|nanl o Ho Hi Hl Hs|nanl o Ho Hi Hl Hd Hs]; (split; [now constructor|]); try exact Hl. reflexivity. Qed.
Lemma upward_ordered m p i : upward m p -> (i < length (em_cats m))%nat -> (1 <= nth i (em_cats m) O)%nat /\ ordered_item (nth i (em_cats m) O) (fun k x => p [x] i k).
Proof.
  intros [nanl o Ho Hi|nanl o Ho Hi Hl Hs|nanl o Ho Hi Hl Hs|nanl o Ho Hi Hl Hs|nanl o Ho Hi Hl Hd Hs] HI.
  - cbn [of_sub opl_sub logit_sub em_cats sb_cats] in *. rewrite repeat_length in HI. assert (E : nth i (repeat 2%nat (opl_items o)) O = 2%nat) by (apply nth_error_nth; now apply nth_error_repeat_lt). rewrite E. split; [lia|].
    apply (ordered_two (fun x => logistic (x + nth i (opl_b o) 0))); [intro; apply logistic_bounds|intros x y H; apply logistic_incr; lra|]. intros k x _. unfold opl_p. cbv zeta. cbn [nth]. reflexivity.
  - cbn [of_sub tpl_sub logit_sub em_cats sb_cats] in *. rewrite repeat_length in HI. assert (E : nth i (repeat 2%nat (tpl_items o)) O = 2%nat) by (apply nth_error_nth; now apply nth_error_repeat_lt). rewrite E. split; [lia|]. specialize (Hs i HI).
    apply (ordered_two (fun x => logistic (slope (tpl_free o) (tpl_w o) i 0 * x + nth i (tpl_b o) 0))); [intro; apply logistic_bounds|intros x y H; apply logistic_incr; nra|]. intros k x _. unfold tpl_p. cbv zeta. rewrite Hl, predictor_one. reflexivity.
  - cbn [of_sub thpl_sub logit_sub em_cats sb_cats] in *. rewrite repeat_length in HI. assert (E : nth i (repeat 2%nat (thpl_items o)) O = 2%nat) by (apply nth_error_nth; now apply nth_error_repeat_lt). rewrite E. split; [lia|]. specialize (Hs i HI). pose proof (logistic_bounds (nth i (thpl_g o) 0)) as HG.
    apply (ordered_two (fun x => logistic (nth i (thpl_g o) 0) + (1 - logistic (nth i (thpl_g o) 0)) * logistic (slope (thpl_free o) (thpl_w o) i 0 * x + nth i (thpl_b o) 0))).
    + intro x. pose proof (logistic_bounds (slope (thpl_free o) (thpl_w o) i 0 * x + nth i (thpl_b o) 0)). nra.
    + intros x y H. pose proof (logistic_incr (slope (thpl_free o) (thpl_w o) i 0 * x + nth i (thpl_b o) 0) (slope (thpl_free o) (thpl_w o) i 0 * y + nth i (thpl_b o) 0) ltac:(nra)). nra.
    + intros k x _. unfold thpl_p. cbv zeta. rewrite Hl, predictor_one. reflexivity.
  - change (em_cats (of_sub (gpc_sub nanl o))) with (p_cats o) in *. assert (HK : (1 <= nth i (p_cats o) O)%nat) by (apply cats_at; [apply Ho|exact HI]). split; [exact HK|]. specialize (Hs i HI).
    apply (ordered_soft _ (intercept (p_cats o) (p_b o) i) (fun k => INR k * slope (p_free o) (p_w o) i 0)); [exact HK| |].
    + intros k k' H1 H2. apply Rmult_lt_compat_r; [exact Hs|]. now apply lt_INR.
    + intros k x Hk. unfold gpc_p. rewrite Hl, predictor_one. unfold category_probability. f_equal; [f_equal; ring|]. apply sumn_ext. intros j _. f_equal. ring.
  - change (em_cats (of_sub (grm_sub nanl o))) with (p_cats o) in *. assert (HK : (1 <= nth i (p_cats o) O)%nat) by (apply cats_at; [apply Ho|exact HI]). split; [exact HK|]. specialize (Hs i HI).
    apply (ordered_graded (nth i (p_cats o) O) (intercept (p_cats o) (p_b o) i) HK) with (a := slope (p_free o) (p_w o) i 0).
    + intros j H1 H2. apply (Hd i (nth i (p_cats o) O) j); [apply nth_error_nth_lt; exact HI|exact H1|exact H2].
    + exact Hs.
    + intros k x Hk. unfold grm_p. cbv zeta. rewrite Hl, predictor_one. reflexivity.
Qed.

(** ** Tilting *)
Lemma rsum_map_lt {A} (f g : A -> R) l : (forall t, In t l -> f t <= g t) -> (exists t, In t l /\ f t < g t) -> rsum (map f l) < rsum (map g l).
Proof.
  induction l as [|t l IH]; intros H (u & Hu & Hlt); [destruct Hu|]. cbn [map rsum]. assert (rsum (map f l) <= rsum (map g l)) as HL.
  { clear IH Hu. induction l as [|s l IHl]; cbn [map rsum]; [lra|]. assert (f s <= g s) by (apply H; right; now left). assert (rsum (map f l) <= rsum (map g l)) by (apply IHl; intros r [-> |Hr]; apply H; [now left|right; now right]). lra. }
  destruct Hu as [-> |Hu]; [lra|]. assert (f t <= g t) by (apply H; now left). assert (rsum (map f l) < rsum (map g l)) by (apply IH; [intros; apply H; now right|eauto]). lra.
Qed.
Lemma rsum_map_le {A} (f g : A -> R) l : (forall t, In t l -> f t <= g t) -> rsum (map f l) <= rsum (map g l).
Proof. induction l as [|t l IH]; intro H; cbn [map rsum]; [lra|]. assert (f t <= g t) by (apply H; now left). assert (rsum (map f l) <= rsum (map g l)) by (apply IH; intros; apply H; now right). lra. Qed.
Lemma rsum_map_minus {A} (f g : A -> R) c l : rsum (map (fun t => f t - c * g t) l) = rsum (map f l) - c * rsum (map g l).
Proof. induction l as [|t l IH]; cbn [map rsum]; [ring|rewrite IH; ring]. Qed.
Lemma rsum_map_pos {A} (f : A -> R) l : l <> [] -> (forall t, In t l -> 0 < f t) -> 0 < rsum (map f l).
Proof. intros Hl H. destruct l as [|t l]; [congruence|]. cbn [map rsum]. assert (0 < f t) by (apply H; now left). pose proof (rsum_map_le (fun _ => 0) f l ltac:(intros; left; apply H; now right)) as Q. assert (E : rsum (map (fun _ => 0) l) = 0) by (clear; induction l; cbn [map rsum]; lra). lra. Qed.

Section Tilt.
  Context {A : Type}.
  Variables (grid : list A) (pos w : A -> R) (rho : R -> R) (w' : A -> R).
  Hypotheses (Hne : grid <> []) (Hw : forall t, In t grid -> 0 < w t) (Hr : forall x, 0 < rho x) (Hw' : forall t, In t grid -> w' t = rho (pos t) * w t).
  Let W := rsum (map w grid).
  Let mu := rsum (map (fun t => pos t * w t) grid) / W.
  Let W' := rsum (map w' grid).
  Lemma W_pos : 0 < W. Proof using Hne Hw. now apply rsum_map_pos. Qed.
  Lemma W'_pos : 0 < W'. Proof using Hne Hw Hr Hw'. apply rsum_map_pos; [exact Hne|]. intros t Ht. rewrite Hw' by exact Ht. apply Rmult_lt_0_compat; [apply Hr|now apply Hw]. Qed.
  Lemma centred : rsum (map (fun t => (pos t - mu) * w t) grid) = 0.
  Proof using Hne Hw. rewrite (map_ext _ (fun t => pos t * w t - mu * w t)) by (intro; ring). rewrite rsum_map_minus. fold W. unfold mu. field. pose proof W_pos. lra. Qed.
  Lemma tilt_gap : rsum (map (fun t => pos t * w' t) grid) / W' - mu = rsum (map (fun t => (pos t - mu) * (rho (pos t) - rho mu) * w t) grid) / W'.
  Proof using Hne Hw Hr Hw'.
    replace (rsum (map (fun t => (pos t - mu) * (rho (pos t) - rho mu) * w t) grid)) with (rsum (map (fun t => pos t * w' t) grid) - mu * W').
    2:{ unfold W'. rewrite <- rsum_map_minus. replace (rsum (map (fun t => pos t * w' t - mu * w' t) grid)) with (rsum (map (fun t => (pos t - mu) * rho (pos t) * w t) grid)).
        2:{ f_equal. apply map_ext_in. intros t Ht. rewrite (Hw' t Ht). ring. }
        rewrite (map_ext (fun t => (pos t - mu) * (rho (pos t) - rho mu) * w t) (fun t => (pos t - mu) * rho (pos t) * w t - rho mu * ((pos t - mu) * w t))) by (intro; ring). rewrite rsum_map_minus, centred. ring. }
    field. pose proof W'_pos. lra.
  Qed.
  Lemma tilt_up : (forall x y, x < y -> rho x < rho y) -> (exists t t', In t grid /\ In t' grid /\ pos t < pos t') -> mu < rsum (map (fun t => pos t * w' t) grid) / W'.
  Proof using Hne Hw Hr Hw'.
    intros HM (t & t' & Ht & Ht' & Hlt). pose proof tilt_gap as E. enough (0 < rsum (map (fun t => (pos t - mu) * (rho (pos t) - rho mu) * w t) grid) / W') by lra.
    apply Rdiv_lt_0_compat; [|apply W'_pos]. assert (Z : rsum (map (fun _ : A => 0) grid) = 0) by (clear; induction grid; cbn [map rsum]; lra). rewrite <- Z.
    assert (HS : forall t, pos t <> mu -> 0 < (pos t - mu) * (rho (pos t) - rho mu)).
    { intros s Hs. destruct (Rdichotomy _ _ Hs) as [H|H]; [pose proof (HM (pos s) mu H)|pose proof (HM mu (pos s) H)]; nra. }
    apply rsum_map_lt.
    - intros s Hs. destruct (Req_dec (pos s) mu) as [->|H]; [right; ring|]. left. apply Rmult_lt_0_compat; [now apply HS|now apply Hw].
    - destruct (Req_dec (pos t) mu) as [H|H]; [exists t'|exists t]; (split; [assumption|]); (apply Rmult_lt_0_compat; [apply HS; lra|now apply Hw]).
  Qed.
End Tilt.
