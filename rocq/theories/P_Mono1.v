(** Proofs: activation functions. *)
From Verif Require Import Base BaseFacts RBase RFacts M_Logit S_Logit P_Logit M_Mono S_Mono.
Local Open Scope R_scope.

Lemma rleb_true x y : x <= y -> rleb x y = true.
Proof. intro H. unfold rleb. destruct (Rle_dec x y); [reflexivity|contradiction]. Qed.
Lemma rleb_false x y : y < x -> rleb x y = false.
Proof. intro H. unfold rleb. destruct (Rle_dec x y); [lra|reflexivity]. Qed.

Lemma belu_low a x : x <= -1 -> belu a x = a * (exp (x + 1) - 1) - 1.
Proof. intro H. unfold belu. rewrite rleb_true, rleb_false by lra. cbn. ring. Qed.
Lemma belu_high a x : 1 <= x -> belu a x = - a * (exp (- x + 1) - 1) + 1.
Proof. intro H. unfold belu. rewrite rleb_false, (rleb_true 1) by lra. cbn. ring. Qed.
Lemma belu_mid_open a x : -1 < x < 1 -> belu a x = x.
Proof. intro H. unfold belu. rewrite !rleb_false by lra. cbn. ring. Qed.
Lemma belu_mid a x : -1 <= x <= 1 -> belu a x = x.
Proof.
  intros [[H1|H1] [H2|H2]].
  - now apply belu_mid_open.
  - subst. rewrite belu_high by lra. replace (- (1) + 1) with 0 by ring. rewrite exp_0. ring.
  - subst. rewrite belu_low by lra. replace (-1 + 1) with 0 by ring. rewrite exp_0. ring.
  - lra.
Qed.
Lemma belu_odd a x : belu a (- x) = - belu a x.
Proof.
  destruct (Rle_lt_dec x (-1)); [|destruct (Rle_lt_dec 1 x)].
  - rewrite (belu_low a x), belu_high by lra. rewrite Ropp_involutive. ring.
  - rewrite (belu_high a x), belu_low by lra. ring.
  - rewrite !belu_mid by lra. ring.
Qed.
Lemma exp_le_1 x : x <= 0 -> exp x <= 1.
Proof. intro H. rewrite <- exp_0. destruct H as [H| ->]; [left; now apply exp_increasing|right; reflexivity]. Qed.
Lemma exp_lipschitz u v : v <= u -> u <= 0 -> 0 <= exp u - exp v <= u - v.
Proof.
  intros H Hu. split.
  - destruct H as [H| ->]; [apply exp_increasing in H|]; lra.
  - pose proof (exp_ineq1_le (v - u)) as E. pose proof (exp_le_1 u Hu). pose proof (exp_pos u).
    assert (exp v = exp u * exp (v - u)) as -> by (rewrite <- exp_plus; f_equal; ring).
    assert (exp u * (1 + (v - u)) <= exp u * exp (v - u)) by (apply Rmult_le_compat_l; lra).
    nra.
Qed.
Lemma belu_increasing a : 0 < a -> increasing (belu a).
Proof.
  intros Ha x y H.
  assert (E : forall u v, u < v -> exp u < exp v) by (intros; now apply exp_increasing).
  destruct (Rle_lt_dec x (-1)) as [Hx|Hx]; [|destruct (Rle_lt_dec 1 x) as [Hx1|Hx1]].
  - rewrite (belu_low a x) by lra. pose proof (exp_le_1 (x + 1) ltac:(lra)).
    destruct (Rle_lt_dec y (-1)) as [Hy|Hy].
    + rewrite belu_low by lra. pose proof (E (x + 1) (y + 1) ltac:(lra)). nra.
    + destruct (Rle_lt_dec 1 y) as [Hy1|Hy1].
      * rewrite belu_high by lra. pose proof (exp_le_1 (- y + 1) ltac:(lra)). nra.
      * rewrite belu_mid by lra. nra.
  - rewrite !belu_high by lra. pose proof (E (- y + 1) (- x + 1) ltac:(lra)). nra.
  - rewrite (belu_mid a x) by lra.
    destruct (Rle_lt_dec 1 y) as [Hy1|Hy1].
    + rewrite belu_high by lra. pose proof (exp_le_1 (- y + 1) ltac:(lra)). nra.
    + rewrite belu_mid by lra. lra.
Qed.
Lemma belu_bounds a x : 0 < a -> - (1 + a) < belu a x < 1 + a.
Proof.
  intro Ha. destruct (Rle_lt_dec x (-1)); [|destruct (Rle_lt_dec 1 x)].
  - rewrite belu_low by lra. pose proof (exp_pos (x + 1)). pose proof (exp_le_1 (x + 1) ltac:(lra)). nra.
  - rewrite belu_high by lra. pose proof (exp_pos (- x + 1)). pose proof (exp_le_1 (- x + 1) ltac:(lra)). nra.
  - rewrite belu_mid by lra. lra.
Qed.
(** The bounds are approached: no smaller bound works. *)
Lemma belu_bound_tight a e : 0 < a -> 0 < e -> exists x, 1 + a - e < belu a x.
Proof.
  intros Ha He. exists (1 + Rmax 0 (- ln (e / (2 * a)))).
  pose proof (Rmax_l 0 (- ln (e / (2 * a)))). pose proof (Rmax_r 0 (- ln (e / (2 * a)))) as Hm.
  set (t := Rmax 0 _) in *. rewrite belu_high by lra. replace (- (1 + t) + 1) with (- t) by ring.
  assert (exp (- t) <= e / (2 * a)).
  { rewrite <- (exp_ln (e / (2 * a))) by (apply Rdiv_lt_0_compat; lra).
    destruct (Req_dec (- t) (ln (e / (2 * a)))) as [->|Hn]; [lra|]. left. apply exp_increasing. lra. }
  assert (a * exp (- t) <= e / 2).
  { replace (e / 2) with (a * (e / (2 * a))) by (field; lra). apply Rmult_le_compat_l; lra. }
  lra.
Qed.
Lemma belu_lipschitz a x y : 0 < a -> x <= y -> 0 <= belu a y - belu a x <= Rmax 1 a * (y - x).
Proof.
  intros Ha H. pose proof (Rmax_l 1 a) as L1. pose proof (Rmax_r 1 a) as L2. set (L := Rmax 1 a) in *.
  split. { destruct H as [H| ->]; [pose proof (belu_increasing a Ha x y H)|]; lra. }
  assert (P1 : forall u v, u <= v -> v <= -1 -> belu a v - belu a u <= L * (v - u)).
  { intros u v H1 H2. rewrite !belu_low by lra. pose proof (exp_lipschitz (v + 1) (u + 1) ltac:(lra) ltac:(lra)). nra. }
  assert (P2 : forall u v, u <= v -> -1 <= u -> v <= 1 -> belu a v - belu a u <= L * (v - u)).
  { intros u v H1 H2 H3. rewrite !belu_mid by lra. nra. }
  assert (P3 : forall u v, u <= v -> 1 <= u -> belu a v - belu a u <= L * (v - u)).
  { intros u v H1 H2. rewrite !belu_high by lra. pose proof (exp_lipschitz (- u + 1) (- v + 1) ltac:(lra) ltac:(lra)). nra. }
  destruct (Rle_lt_dec x (-1)) as [Hx|Hx]; [|destruct (Rle_lt_dec 1 x) as [Hx1|Hx1]].
  - destruct (Rle_lt_dec y (-1)) as [Hy|Hy]; [now apply P1|].
    pose proof (P1 x (-1) Hx ltac:(lra)). destruct (Rle_lt_dec y 1) as [Hy1|Hy1].
    + pose proof (P2 (-1) y ltac:(lra) ltac:(lra) Hy1). lra.
    + pose proof (P2 (-1) 1 ltac:(lra) ltac:(lra) ltac:(lra)). pose proof (P3 1 y ltac:(lra) ltac:(lra)). lra.
  - apply P3; lra.
  - destruct (Rle_lt_dec y 1) as [Hy1|Hy1].
    + apply P2; lra.
    + pose proof (P2 x 1 ltac:(lra) ltac:(lra) ltac:(lra)). pose proof (P3 1 y ltac:(lra) ltac:(lra)). lra.
Qed.
Lemma belu_continuous a : 0 < a -> continuity (belu a).
Proof.
  intros Ha x eps He. pose proof (Rmax_l 1 a) as L1. set (L := Rmax 1 a) in *.
  exists (eps / (2 * L)). split; [apply Rdiv_lt_0_compat; lra|].
  intros y [_ Hd]. unfold dist in *. cbn in *. unfold R_dist in *.
  assert (Rabs (belu a y - belu a x) <= L * Rabs (y - x)).
  { destruct (Rle_lt_dec x y) as [H|H].
    - pose proof (belu_lipschitz a x y Ha H). fold L in H0. rewrite !Rabs_right by lra. lra.
    - pose proof (belu_lipschitz a y x Ha ltac:(lra)). fold L in H0.
      rewrite Rabs_left1 by lra. rewrite (Rabs_left1 (y - x)) by lra. lra. }
  assert (L * Rabs (y - x) < L * (eps / (2 * L))) by (apply Rmult_lt_compat_l; lra).
  replace (L * (eps / (2 * L))) with (eps / 2) in * by (field; lra). lra.
Qed.

(** Derivatives. *)
Lemma derivable_local f g x l d : 0 < d -> (forall h, Rabs h < d -> f (x + h) = g (x + h)) ->
  derivable_pt_lim g x l -> derivable_pt_lim f x l.
Proof.
  intros Hd He Hg eps Heps. destruct (Hg eps Heps) as [del Hdel].
  assert (Hm : 0 < Rmin d del) by (apply Rmin_pos; [auto|apply cond_pos]).
  exists (mkposreal _ Hm). cbn. intros h Hh Hlt.
  rewrite He by (eapply Rlt_le_trans; [exact Hlt|apply Rmin_l]).
  replace (f x) with (g x).
  - apply Hdel; auto. eapply Rlt_le_trans; [exact Hlt|apply Rmin_r].
  - pose proof (He 0) as E. rewrite Rplus_0_r in E. symmetry. apply E. rewrite Rabs_R0. auto.
Qed.
Lemma derivable_glue f g1 g2 x l d : 0 < d ->
  (forall h, - d < h <= 0 -> f (x + h) = g1 (x + h)) -> (forall h, 0 <= h < d -> f (x + h) = g2 (x + h)) ->
  derivable_pt_lim g1 x l -> derivable_pt_lim g2 x l -> derivable_pt_lim f x l.
Proof.
  intros Hd H1 H2 G1 G2 eps Heps. destruct (G1 eps Heps) as [d1 Hd1]. destruct (G2 eps Heps) as [d2 Hd2].
  assert (Hm : 0 < Rmin d (Rmin d1 d2)) by (repeat apply Rmin_pos; auto; apply cond_pos).
  exists (mkposreal _ Hm). cbn. intros h Hh Hlt.
  assert (Rabs h < d) by (eapply Rlt_le_trans; [exact Hlt|apply Rmin_l]).
  assert (Rabs h < d1) by (eapply Rlt_le_trans; [exact Hlt|eapply Rle_trans; [apply Rmin_r|apply Rmin_l]]).
  assert (Rabs h < d2) by (eapply Rlt_le_trans; [exact Hlt|eapply Rle_trans; [apply Rmin_r|apply Rmin_r]]).
  assert (E1 : f x = g1 x) by (pose proof (H1 0 ltac:(lra)) as E; now rewrite Rplus_0_r in E).
  assert (E2 : f x = g2 x) by (pose proof (H2 0 ltac:(lra)) as E; now rewrite Rplus_0_r in E).
  destruct (Rle_lt_dec h 0) as [Hs|Hs].
  - rewrite Rabs_left1 in H by lra. rewrite H1, E1 by lra. apply Hd1; auto.
  - rewrite Rabs_right in H by lra. rewrite H2, E2 by lra. apply Hd2; auto.
Qed.
Lemma deriv_low a x : derivable_pt_lim (fun x => a * (exp (x + 1) - 1) - 1) x (a * exp (x + 1)).
Proof.
  replace (a * exp (x + 1)) with (a * (exp (x + 1) * (1 + 0) - 0) - 0) by ring.
  apply (derivable_pt_lim_minus (fun x => a * (exp (x + 1) - 1)) (fun _ => 1)); [|apply derivable_pt_lim_const].
  apply (derivable_pt_lim_scal (fun x => exp (x + 1) - 1)).
  apply (derivable_pt_lim_minus (fun x => exp (x + 1)) (fun _ => 1)); [|apply derivable_pt_lim_const].
  apply (derivable_pt_lim_comp (fun x => x + 1) exp); [|apply derivable_pt_lim_exp].
  apply (derivable_pt_lim_plus (fun x => x) (fun _ => 1)); [apply derivable_pt_lim_id|apply derivable_pt_lim_const].
Qed.
Lemma deriv_high a x : derivable_pt_lim (fun x => - a * (exp (- x + 1) - 1) + 1) x (a * exp (- x + 1)).
Proof.
  replace (a * exp (- x + 1)) with (- a * (exp (- x + 1) * (- (1) + 0) - 0) + 0) by ring.
  apply (derivable_pt_lim_plus (fun x => - a * (exp (- x + 1) - 1)) (fun _ => 1)); [|apply derivable_pt_lim_const].
  apply (derivable_pt_lim_scal (fun x => exp (- x + 1) - 1)).
  apply (derivable_pt_lim_minus (fun x => exp (- x + 1)) (fun _ => 1)); [|apply derivable_pt_lim_const].
  apply (derivable_pt_lim_comp (fun x => - x + 1) exp); [|apply derivable_pt_lim_exp].
  apply (derivable_pt_lim_plus (fun x => - x) (fun _ => 1)); [|apply derivable_pt_lim_const].
  apply (derivable_pt_lim_opp (fun x => x)), derivable_pt_lim_id.
Qed.
Lemma backward_low a x : x <= -1 -> belu_backward a x = a * exp (x + 1).
Proof. intro H. unfold belu_backward. rewrite rleb_true, rleb_false by lra. cbn. ring. Qed.
Lemma backward_high a x : 1 <= x -> belu_backward a x = a * exp (- x + 1).
Proof. intro H. unfold belu_backward. rewrite rleb_false, (rleb_true 1) by lra. cbn. ring. Qed.
Lemma backward_mid a x : -1 < x < 1 -> belu_backward a x = 1.
Proof. intro H. unfold belu_backward. rewrite !rleb_false by lra. cbn. ring. Qed.

Lemma Rabs_lt_inv h d : Rabs h < d -> - d < h < d.
Proof. intro H. apply Rabs_def2 in H. lra. Qed.
Lemma belu_derivative a x : (x <> 1 /\ x <> -1) \/ a = 1 -> derivable_pt_lim (belu a) x (belu_backward a x).
Proof.
  intro Hx. destruct (Rtotal_order x (-1)) as [H|[H|H]].
  - rewrite backward_low by lra. apply (derivable_local _ (fun x => a * (exp (x + 1) - 1) - 1) x _ (-1 - x)); [lra| |apply deriv_low].
    intros h Hh. apply Rabs_lt_inv in Hh. apply belu_low. lra.
  - destruct Hx as [Hx|Ha]; [lra|]. subst a x. rewrite backward_low by lra. replace (-1 + 1) with 0 by ring.
    rewrite exp_0, Rmult_1_r.
    apply (derivable_glue _ (fun x => 1 * (exp (x + 1) - 1) - 1) (fun x => x) (-1) 1 1); try lra.
    + intros h Hh. apply belu_low. lra.
    + intros h Hh. apply belu_mid. lra.
    + pose proof (deriv_low 1 (-1)) as D. replace (-1 + 1) with 0 in D by ring. now rewrite exp_0, Rmult_1_r in D.
    + apply derivable_pt_lim_id.
  - destruct (Rtotal_order x 1) as [H'|[H'|H']].
    + rewrite backward_mid by lra. apply (derivable_local _ (fun x => x) x _ (Rmin (x + 1) (1 - x))).
      * apply Rmin_pos; lra.
      * intros h Hh. apply Rabs_lt_inv in Hh. pose proof (Rmin_l (x + 1) (1 - x)). pose proof (Rmin_r (x + 1) (1 - x)).
        apply belu_mid. lra.
      * apply derivable_pt_lim_id.
    + destruct Hx as [Hx|Ha]; [lra|]. subst a x. rewrite backward_high by lra. replace (- (1) + 1) with 0 by ring.
      rewrite exp_0, Rmult_1_r.
      apply (derivable_glue _ (fun x => x) (fun x => - 1 * (exp (- x + 1) - 1) + 1) 1 1 1); try lra.
      * intros h Hh. apply belu_mid. lra.
      * intros h Hh. apply belu_high. lra.
      * apply derivable_pt_lim_id.
      * pose proof (deriv_high 1 1) as D. replace (- (1) + 1) with 0 in D by ring. now rewrite exp_0, Rmult_1_r in D.
    + rewrite backward_high by lra. apply (derivable_local _ (fun x => - a * (exp (- x + 1) - 1) + 1) x _ (x - 1)); [lra| |apply deriv_high].
      intros h Hh. apply Rabs_lt_inv in Hh. apply belu_high. lra.
Qed.
(** At the joins there is no derivative unless alpha is 1. *)
Lemma belu_kink a l : 0 < a -> derivable_pt_lim (belu a) 1 l -> a = 1 /\ l = 1.
Proof.
  intros Ha H.
  assert (Hl : l = 1).
  { apply (uniqueness_limite (belu a) 1); [exact H|]. intros eps He. destruct (H eps He) as [d Hd].
    assert (E : l = 1); [|subst; exists d; exact Hd].
    apply cond_eq. intros e Hee. destruct (H e Hee) as [d' Hd'].
    pose proof (cond_pos d'). set (h := - Rmin (d' / 2) 1).
    assert (0 < Rmin (d' / 2) 1) by (apply Rmin_pos; lra). pose proof (Rmin_l (d' / 2) 1). pose proof (Rmin_r (d' / 2) 1).
    specialize (Hd' h ltac:(unfold h; lra)). rewrite Rabs_left in Hd' by (unfold h; lra).
    specialize (Hd' ltac:(unfold h; lra)). rewrite !belu_mid in Hd' by (unfold h; lra).
    replace ((1 + h - 1) / h) with 1 in Hd' by (field; unfold h; lra). now rewrite Rabs_minus_sym. }
  split; [|exact Hl]. subst l.
  apply cond_eq. intros e Hee.
  pose proof (deriv_high a 1) as D. replace (- (1) + 1) with 0 in D by ring. rewrite exp_0, Rmult_1_r in D.
  destruct (H (e / 2) ltac:(lra)) as [d1 H1]. destruct (D (e / 2) ltac:(lra)) as [d2 H2].
  pose proof (cond_pos d1). pose proof (cond_pos d2). set (h := Rmin (d1 / 2) (d2 / 2)).
  assert (0 < h) by (apply Rmin_pos; lra). pose proof (Rmin_l (d1 / 2) (d2 / 2)). pose proof (Rmin_r (d1 / 2) (d2 / 2)). fold h in H4, H5, H6.
  specialize (H1 h ltac:(lra)). rewrite Rabs_right in H1 by lra. specialize (H1 ltac:(lra)).
  specialize (H2 h ltac:(lra)). rewrite (Rabs_right h) in H2 by lra. specialize (H2 ltac:(lra)).
  rewrite !belu_high in H1 by lra.
  replace (a - 1) with (((- a * (exp (- (1 + h) + 1) - 1) + 1 - (- a * (exp (- (1) + 1) - 1) + 1)) / h - 1)
      - ((- a * (exp (- (1 + h) + 1) - 1) + 1 - (- a * (exp (- (1) + 1) - 1) + 1)) / h - a)) by ring.
  eapply Rle_lt_trans; [apply Rabs_triang|]. rewrite Rabs_Ropp. lra.
Qed.

Lemma softplus_pos x : 0 < softplus x.
Proof. unfold softplus. rewrite <- ln_1. pose proof (exp_pos x). apply ln_increasing; lra. Qed.
Lemma softplus_increasing : increasing softplus.
Proof. intros x y H. unfold softplus. pose proof (exp_pos x). pose proof (exp_increasing _ _ H). apply ln_increasing; lra. Qed.
Lemma elu_increasing : increasing elu.
Proof.
  intros x y H. unfold elu. destruct (Rle_dec x 0) as [Hx|Hx], (Rle_dec y 0) as [Hy|Hy]; [| |lra|lra].
  - pose proof (exp_increasing _ _ H). lra.
  - pose proof (exp_le_1 x Hx). lra.
Qed.
Lemma increasing_le f : increasing f -> nondecreasing f.
Proof. intros H x y [Hxy| ->]; [left; auto|lra]. Qed.
Lemma neg_elu_increasing : increasing (fun v => - elu (- v)).
Proof. intros x y H. pose proof (elu_increasing (- y) (- x) ltac:(lra)). cbv beta. lra. Qed.
Lemma elu_0 : elu 0 = 0.
Proof. unfold elu. destruct (Rle_dec 0 0); [rewrite exp_0; ring|reflexivity]. Qed.
