(** Lemmas: linking scale, rescaled gradients, the counterexample to the round trip. *)
From Verif Require Import Base BaseFacts RBase RFacts M_Logit S_Logit M_Mono S_Mono M_Lik M_Est M_Scale S_Scale P_Logit3 P_Mono1 P_Mono2 P_Lik3 P_Scale1 P_Scale2 P_Scale3.
Local Open Scope R_scope.

(** ** Linking by a spline *)
Definition link_row (f : R -> R) (inverted : bool) : list R -> list R := map (fun t => f t * link_multiplier inverted).
Lemma width1 (t : list R) : length t = 1%nat -> t = [nth 0 t 0].
Proof. destruct t as [|a [|b t]]; cbn; intros; try lia. reflexivity. Qed.
Lemma link_acts grad f g inverted : acts_as 1 (link_spline_scale grad f g inverted) (link_row f inverted).
Proof. split; [intros t Ht; unfold link_row; rewrite map_length; assumption|]. reflexivity. Qed.
Lemma link_undone grad f g : (forall x, g (f x) = x) -> (forall y, f (g y) = y) ->
  undone_by 1 (link_spline_scale grad f g false) (link_row f false) (link_row g false).
Proof.
  intros H1 H2. split; [apply link_acts|]. split; [intros t Ht; unfold link_row; rewrite map_length; assumption|].
  split; [reflexivity|]. unfold link_row, link_multiplier.
  split; intros t Ht; rewrite (width1 t Ht); cbn; f_equal; rewrite !Rmult_1_r; auto.
Qed.
Lemma link_round_trip_batch grad f g inverted thetas :
  bind (sc_transform (link_spline_scale grad f g inverted) thetas) (sc_inverse (link_spline_scale grad f g inverted)) =
  Ok (map (map (fun t => g (f t * link_multiplier inverted) * link_multiplier inverted)) thetas).
Proof. cbn. rewrite map_map. f_equal. apply map_ext; intros t. rewrite map_map. reflexivity. Qed.
Lemma link_inverted_iff grad f g : (forall x, g (f x) = x) -> (forall y, f (g y) = y) ->
  (round_trip 1 [link_spline_scale grad f g true] <-> forall x, f (- x) = - f x).
Proof.
  intros H1 H2. unfold round_trip. split.
  - intros H x. specialize (H [[x]] ltac:(constructor; [reflexivity|constructor])). cbn in H.
    injection H as H. unfold link_multiplier in H. replace (f x * -1) with (- f x) in H by ring.
    rewrite <- H2. f_equal. rewrite <- H at 1. ring.
  - intros H thetas Ht. cbn. f_equal. rewrite map_map. rewrite <- (map_id thetas) at 2. apply map_ext_in. intros t Hin.
    rewrite Forall_forall in Ht. rewrite (width1 t (Ht t Hin)). cbn. f_equal. unfold link_multiplier.
    replace (f (nth 0 t 0) * -1) with (f (- nth 0 t 0)) by (rewrite H; ring). rewrite H1. ring.
Qed.
Lemma link_jacobian grad f g inverted t l : autograd_exact grad -> derivable_pt_lim f t l ->
  sc_jacobian (link_spline_scale grad f g inverted) [[t]] = Ok [[[l * link_multiplier inverted]]] /\
  is_jacobian 1 1 (link_row f inverted) [t] [[l * link_multiplier inverted]].
Proof.
  intros HG Hd. set (m := link_multiplier inverted).
  assert (D : derivable_pt_lim (fun x => f x * m) t (l * m)).
  { pose proof (derivable_pt_lim_scal f m t l Hd) as D. intros eps He. destruct (D eps He) as (d & B). exists d.
    intros h Hh Hl. specialize (B h Hh Hl). unfold mult_real_fct in B.
    replace ((f (t + h) * m - f t * m) / h - l * m) with ((m * f (t + h) - m * f t) / h - m * l) by (field; assumption). assumption. }
  assert (C : forall i, (i < 1)%nat -> derivable_pt_lim (fun x => f x * m) (nth i [t] 0) (nth i [l * m] 0)).
  { intros i Hi. assert (i = O) by lia; subst i. exact D. }
  assert (F : forall y i, length y = 1%nat -> (i < 1)%nat -> nth i (map (fun x => f x * m) y) 0 = f (nth i y 0) * m).
  { intros y i Hy Hi. assert (i = O) by lia; subst i. rewrite (width1 y Hy). reflexivity. }
  split.
  - unfold sc_jacobian, link_spline_scale. fold m. cbn [map].
    rewrite (sum_gradient_coordinatewise 1 grad (fun _ x => f x * m) (map (fun x => f x * m)) [t] [l * m]); auto.
    intros; rewrite map_length; assumption.
  - change [[l * m]] with (diag [l * m]).
    apply (jacobian_coordinatewise 1 (fun _ x => f x * m)); auto.
    intros y Hy; unfold link_row; rewrite map_length; assumption.
Qed.

(** ** Linking by a neural network *)
Lemma elu_lipschitz x y : x <= y -> elu y - elu x <= y - x.
Proof.
  intros H. unfold elu. destruct (Rle_dec x 0), (Rle_dec y 0); try lra.
  - pose proof (exp_lipschitz y x H r0). lra.
  - pose proof (exp_ineq1_le x). lra.
Qed.
Lemma act_lipschitz b i x y : x <= y -> act b i y - act b i x <= y - x.
Proof.
  intros H. assert (E1 : elu y - elu x <= y - x) by (apply elu_lipschitz; assumption).
  assert (E2 : - elu (- y) - - elu (- x) <= y - x).
  { pose proof (elu_lipschitz (- y) (- x) ltac:(lra)). lra. }
  assert (E3 : belu 1 y - belu 1 x <= y - x).
  { pose proof (belu_lipschitz 1 x y ltac:(lra) H) as [_ B]. rewrite Rmax_left in B by lra. lra. }
  unfold act. destruct b; [destruct (i mod 3)%nat as [|[|k]]|destruct (i mod 2)%nat as [|k]]; assumption.
Qed.
Definition nn_slope (layer : spl) : R := sumn (sl_out layer) (fun o => layer_weight layer o 0).
Definition nn_value (layer : spl) (t : R) : R :=
  sumn (sl_out layer) (fun o => act true o (layer_weight layer o 0 * t + layer_bias layer o)).
Lemma spl_forward_one layer t o : spl_wf layer -> sl_in layer = 1%nat -> (o < sl_out layer)%nat ->
  nth o (spl_forward layer [t]) 0 = layer_weight layer o 0 * t + layer_bias layer o.
Proof.
  intros Hw Hi Ho. apply nth_error_nth. rewrite spl_forward_spec by (auto; rewrite Hi; reflexivity).
  rewrite Hi. unfold predictor. cbn. f_equal. ring.
Qed.
Lemma link_nn_value_eq layer m t : spl_wf layer -> sl_in layer = 1%nat -> (sl_out layer mod 3 = 0)%nat ->
  link_nn_value layer m [t] = Ok [nn_value layer t * m].
Proof.
  intros Hw Hi Hm. unfold link_nn_value.
  assert (L : length (spl_forward layer [t]) = sl_out layer) by (apply spl_forward_length; assumption).
  destruct (split_activation_spec true (spl_forward layer [t])) as (y & E & Ly & Hy).
  { rewrite L. exact Hm. }
  rewrite E. cbn. f_equal. f_equal. f_equal. rewrite rsum_nth, Ly, L. apply sumn_ext; intros o Ho.
  rewrite Hy by lia. rewrite spl_forward_one by assumption. reflexivity.
Qed.
Lemma link_nn_width layer m t : spl_wf layer -> (sl_out layer mod 3 <> 0)%nat -> link_nn_value layer m t = Err RuntimeError.
Proof.
  intros Hw Hm. unfold link_nn_value. rewrite split_activation_error; [reflexivity|].
  rewrite spl_forward_length by assumption. exact Hm.
Qed.
Lemma nn_jacobian_value grad layer inverted t : autograd_exact grad -> spl_wf layer -> sl_in layer = 1%nat ->
  sc_jacobian (link_nn_scale grad layer inverted) [[t]] = Ok [[[nn_slope layer * link_multiplier inverted]]].
Proof.
  intros HG Hw Hi. set (m := link_multiplier inverted).
  assert (E : grad (fun x => rsum (map (fun v => v * m) (spl_forward layer (upd 0 x [t])))) (nth 0 [t] 0) = nn_slope layer * m).
  { apply HG. cbn [nth].
    assert (F : forall x, rsum (map (fun v => v * m) (spl_forward layer (upd 0 x [t]))) =
                  nn_slope layer * m * x + sumn (sl_out layer) (fun o => layer_bias layer o * m)).
    { intros x. cbn [upd]. rewrite rsum_nth, map_length, spl_forward_length by assumption.
      transitivity (sumn (sl_out layer) (fun o => m * x * layer_weight layer o 0 + layer_bias layer o * m)).
      - apply sumn_ext; intros o Ho. rewrite nth_map_lt by (rewrite spl_forward_length; assumption).
        rewrite spl_forward_one by assumption. ring.
      - rewrite sumn_plus, sumn_scal. unfold nn_slope. ring. }
    intros eps He. exists (mkposreal 1 Rlt_0_1). intros h Hh _. rewrite !F.
    match goal with |- Rabs ?e < _ => replace e with 0 by (field; assumption) end. rewrite Rabs_R0; assumption. }
  unfold sc_jacobian, link_nn_scale. fold m. cbn [map]. unfold sum_gradient. cbn [length seq map]. rewrite E. reflexivity.
Qed.
Lemma deriv_le f x l d : 0 < d -> derivable_pt_lim f x l -> (forall h, 0 < h < d -> 0 <= f (x + h) - f x) -> 0 <= l.
Proof.
  intros Hd0 Hd Hm. destruct (Rle_lt_dec 0 l) as [|Hl]; [assumption|]. exfalso.
  destruct (Hd (- l) ltac:(lra)) as ([e He] & B). cbn [pos] in B.
  set (h := Rmin e d / 2). assert (0 < Rmin e d) by (apply Rmin_pos; assumption).
  assert (Rmin e d <= e) by apply Rmin_l. assert (Rmin e d <= d) by apply Rmin_r.
  assert (Hh : 0 < h) by (unfold h; lra).
  specialize (B h ltac:(lra) ltac:(rewrite Rabs_right; unfold h; lra)). specialize (Hm h ltac:(unfold h in *; lra)).
  assert (Q : 0 <= (f (x + h) - f x) / h) by (apply Rmult_le_pos; [assumption|left; apply Rinv_0_lt_compat; assumption]).
  apply Rabs_def2 in B. lra.
Qed.
Lemma nn_derivative_below layer t l o : spl_wf layer -> (o < sl_out layer)%nat -> (o mod 3 = 0)%nat ->
  0 < layer_weight layer o 0 -> layer_weight layer o 0 * t + layer_bias layer o < 0 ->
  derivable_pt_lim (nn_value layer) t l -> l < nn_slope layer.
Proof.
  intros Hw Ho Hm Ha Hx Hd. set (a := layer_weight layer o 0) in *. set (b := layer_bias layer o) in *.
  assert (Hexp : exp (a * t + b) < 1) by (rewrite <- exp_0; apply exp_increasing; assumption).
  enough (H : 0 <= nn_slope layer - l - a * (1 - exp (a * t + b))).
  { assert (0 < a * (1 - exp (a * t + b))) by (apply Rmult_lt_0_compat; lra). lra. }
  pose (D := fun x => nn_slope layer * x - nn_value layer x - (a * x - exp (a * x + b))).
  assert (HD : derivable_pt_lim D t (nn_slope layer - l - a * (1 - exp (a * t + b)))).
  { assert (D1 : derivable_pt_lim (fun x => nn_slope layer * x) t (nn_slope layer)).
    { intros e He. exists (mkposreal 1 Rlt_0_1). intros h Hh _.
      match goal with |- Rabs ?e < _ => replace e with 0 by (field; assumption) end. rewrite Rabs_R0; assumption. }
    assert (D2 : derivable_pt_lim (fun x => a * x + b) t a).
    { intros e He. exists (mkposreal 1 Rlt_0_1). intros h Hh _.
      match goal with |- Rabs ?e < _ => replace e with 0 by (field; assumption) end. rewrite Rabs_R0; assumption. }
    assert (D3 : derivable_pt_lim (fun x => a * x) t a).
    { intros e He. exists (mkposreal 1 Rlt_0_1). intros h Hh _.
      match goal with |- Rabs ?e < _ => replace e with 0 by (field; assumption) end. rewrite Rabs_R0; assumption. }
    pose proof (derivable_pt_lim_comp _ _ _ _ _ D2 (derivable_pt_lim_exp (a * t + b))) as D4.
    pose proof (derivable_pt_lim_minus _ _ _ _ _ (derivable_pt_lim_minus _ _ _ _ _ D1 Hd) (derivable_pt_lim_minus _ _ _ _ _ D3 D4)) as D5.
    replace (nn_slope layer - l - a * (1 - exp (a * t + b))) with (nn_slope layer - l - (a - exp (a * t + b) * a)) by ring.
    exact D5. }
  apply (deriv_le D t _ (- (a * t + b) / a)); [apply Rdiv_lt_0_compat; lra|exact HD|]. intros h [Hh Hhd].
  assert (Hneg : a * (t + h) + b < 0).
  { apply (Rmult_lt_compat_l a) in Hhd; [|assumption]. replace (a * (- (a * t + b) / a)) with (- (a * t + b)) in Hhd by (field; lra). lra. }
  assert (S1 : nn_slope layer * (t + h) - nn_value layer (t + h) - (nn_slope layer * t - nn_value layer t) =
    sumn (sl_out layer) (fun k => layer_weight layer k 0 * h - (act true k (layer_weight layer k 0 * (t + h) + layer_bias layer k)
        - act true k (layer_weight layer k 0 * t + layer_bias layer k)))).
  { rewrite sumn_minus, sumn_scal_r, sumn_minus. unfold nn_slope, nn_value. ring. }
  assert (S2 : a * h - (exp (a * (t + h) + b) - exp (a * t + b)) <= nn_slope layer * (t + h) - nn_value layer (t + h) - (nn_slope layer * t - nn_value layer t)).
  { rewrite S1. eapply Rle_trans; [|apply (sumn_term_le (sl_out layer) _ o); [|assumption]].
    - cbn beta. fold a b. unfold act. rewrite Hm. unfold elu.
      destruct (Rle_dec (a * (t + h) + b) 0); [|lra]. destruct (Rle_dec (a * t + b) 0); lra.
    - intros k Hk. cbn beta. pose proof (layer_weight_nonneg layer k 0 ltac:(apply Hw)) as Hn.
      set (c := layer_weight layer k 0) in *. assert (0 <= c * h) by (apply Rmult_le_pos; lra).
      pose proof (act_lipschitz true k (c * t + layer_bias layer k) (c * (t + h) + layer_bias layer k) ltac:(lra)). lra. }
  unfold D. lra.
Qed.

(** ** Rescaled gradients *)
Lemma gradient_chain n f h t J g g' : (0 < n)%nat -> is_jacobian n n f t J -> is_gradient n h (f t) g' ->
  is_gradient n (fun y => h (f y)) t g -> mvec (transpose J) g' = g.
Proof.
  intros Hn HJ Hh Hg. pose proof (jacobian_compose n n 1 f (fun y => [h y]) t J [g'] Hn HJ Hh) as HC.
  pose proof (jacobian_unique n 1 _ t _ _ HC Hg) as E. cbn in E. injection E as E.
  destruct HJ as (_ & MJ & _). destruct Hh as (_ & MG & _). assert (Lg : length g' = n) by (destruct MG as [_ F]; inversion F; auto).
  rewrite <- (vecmat_transpose n) by assumption. exact E.
Qed.
Lemma inverse_transpose n A B : (0 < n)%nat -> inverse_matrix n A B -> inverse_matrix n (transpose A) (transpose B).
Proof.
  intros Hn (HA & HB & H1 & H2). split; [apply transpose_matrix; assumption|]. split; [apply transpose_matrix; assumption|]. split.
  - intros i j Hi Hj. rewrite Nat.eqb_sym, <- (H2 j i) by assumption. apply sumn_ext; intros k Hk.
    rewrite !(nth_transpose n) by assumption. ring.
  - intros i j Hi Hj. rewrite Nat.eqb_sym, <- (H1 j i) by assumption. apply sumn_ext; intros k Hk.
    rewrite !(nth_transpose n) by assumption. ring.
Qed.
Lemma mvec_inverse n A B v : (0 < n)%nat -> inverse_matrix n A B -> length v = n -> mvec B (mvec A v) = v.
Proof.
  intros Hn (HA & HB & H1 & H2) Hv. rewrite <- (mvec_matmul n n n) by assumption.
  apply (vec_ext n); [rewrite mvec_length; apply (matmul_matrix n n n); assumption|assumption|]. intros i Hi.
  rewrite (nth_mvec n n) by (first [assumption|apply (matmul_matrix n n n); assumption]).
  rewrite (sumn_single n i).
  - rewrite (nth_matmul n n n), H2, Nat.eqb_refl by assumption. ring.
  - assumption.
  - intros k Hk Hne. rewrite (nth_matmul n n n), H2 by assumption. rewrite (proj2 (Nat.eqb_neq i k)) by auto. ring.
Qed.
Lemma clean_finite v : map clean_gradient (map (fun r => Some (Fin r)) v) = v.
Proof. rewrite map_map. apply map_id. Qed.

Lemma Forall2_nth_l {A B} (P : A -> B -> Prop) la lb i a : Forall2 P la lb -> nth_error la i = Some a ->
  exists b, nth_error lb i = Some b /\ P a b.
Proof.
  intros H; revert i; induction H as [|x y la lb Hxy H IH]; intros [|i] E; cbn in *; try discriminate.
  - injection E as <-. exists y; auto.
  - apply IH; assumption.
Qed.
Lemma rescale_correct n solve scales fs thetas m grads (h : nat -> nat -> list R -> R) (g' : nat -> nat -> list R) :
  (0 < n)%nat -> thetas <> [] -> solve_exact n solve -> Forall2 (acts_as n) scales fs -> Forall (width n) thetas ->
  derivatives_along n scales fs thetas ->
  (forall t J, In t thetas -> is_jacobian n n (compose_all fs) t J -> exists B, inverse_matrix n J B) ->
  length grads = (length thetas * m)%nat ->
  (forall i j t, nth_error thetas i = Some t -> (j < m)%nat ->
     is_gradient n (h i j) (compose_all fs t) (g' i j) /\
     is_gradient n (fun y => h i j (compose_all fs y)) t (nth (i * m + j) grads [])) ->
  exists out, rescale_gradients solve n scales grads thetas = Ok out /\ length out = length grads /\
    forall i j, (i < length thetas)%nat -> (j < m)%nat -> nth_error out (i * m + j) = Some (g' i j).
Proof.
  intros Hn Hne Hsolve HA Hw HD Hinv Hlen Hgr.
  destruct (jacobian_chain n scales fs thetas Hn HA Hw HD) as (js & EJ & HJ).
  assert (LJ : length js = length thetas) by (symmetry; clear - HJ; induction HJ; cbn; auto).
  unfold rescale_gradients. rewrite EJ. cbn [bind]. rewrite map_length, LJ.
  assert (HN : (0 < length thetas)%nat) by (destruct thetas; [congruence|cbn; lia]).
  destruct (length thetas) as [|N'] eqn:EN; [lia|]. rewrite <- EN in *. clear EN N'.
  assert (ER : (length grads / length thetas = m)%nat) by (rewrite Hlen, Nat.mul_comm; apply Nat.div_mul; lia).
  rewrite ER. rewrite repeat_interleave_length, map_length, LJ, <- Hlen, Nat.eqb_refl.
  set (sys := repeat_interleave m (map transpose js)).
  assert (Lsys : length sys = length grads) by (unfold sys; rewrite repeat_interleave_length, map_length; lia).
  pose (x := fun p => g' (p / m)%nat (p mod m)%nat).
  assert (EM : mapM (fun '(a, b) => solve a b) (combine sys grads) = Ok (map (fun p => map (fun r => Some (Fin r)) (x p)) (seq 0 (length (combine sys grads))))).
  { apply mapM_index. intros p ab Hp.
    assert (Hpl : (p < length grads)%nat).
    { assert (nth_error (combine sys grads) p <> None) by congruence. apply nth_error_Some in H. rewrite combine_length in H. lia. }
    assert (Hm : (0 < m)%nat) by (destruct m; lia).
    set (i := (p / m)%nat). set (j := (p mod m)%nat).
    assert (Hp' : p = (i * m + j)%nat) by (unfold i, j; pose proof (Nat.div_mod p m); lia).
    assert (Hj : (j < m)%nat) by (apply Nat.mod_upper_bound; lia).
    assert (Hi : (i < length thetas)%nat) by (apply Nat.div_lt_upper_bound; lia).
    destruct (nth_error thetas i) as [t|] eqn:Et; [|apply nth_error_None in Et; lia].
    destruct (Forall2_nth_l _ _ _ i t HJ Et) as (J & EJi & HJi).
    assert (ES : nth_error sys p = Some (transpose J)).
    { unfold sys. rewrite Hp', nth_error_repeat_interleave by assumption. rewrite nth_error_map, EJi. reflexivity. }
    assert (EG : nth_error grads p = Some (nth (i * m + j) grads [])) by (rewrite <- Hp'; apply nth_error_nth'; assumption).
    rewrite (nth_error_combine_some sys grads p _ _ ES EG) in Hp. injection Hp as <-.
    destruct (Hgr i j t Et Hj) as (G1 & G2). pose proof (gradient_chain n (compose_all fs) (h i j) t J _ _ Hn HJi G1 G2) as EC.
    destruct (Hinv t J (nth_error_In _ _ Et) HJi) as (B & HB). pose proof (inverse_transpose n J B Hn HB) as HBt.
    assert (LG : length (nth (i * m + j) grads []) = n).
    { destruct G2 as (_ & (_ & F) & _). inversion F; assumption. }
    assert (LG' : length (g' i j) = n).
    { destruct G1 as (_ & (_ & F) & _). inversion F; assumption. }
    destruct (Hsolve (transpose J) (transpose B) _ HBt LG) as (v & Ev & Lv & Hv). cbn [Nat.add]. rewrite Ev.
    f_equal. f_equal. unfold x. fold i j.
    rewrite <- (mvec_inverse n (transpose J) (transpose B) v), <- (mvec_inverse n (transpose J) (transpose B) (g' i j)) by assumption.
    congruence. }
  rewrite EM. cbn [bind]. eexists. split; [reflexivity|]. rewrite !map_map, map_length, seq_length, combine_length, Lsys.
  split; [lia|]. intros i j Hi Hj. rewrite nth_error_map_seq by (rewrite Nat.min_id, Hlen; nia).
  f_equal. rewrite clean_finite. unfold x. cbn [Nat.add].
  replace ((i * m + j) / m)%nat with i by (apply Nat.div_unique with j; lia).
  replace ((i * m + j) mod m)%nat with j by (apply Nat.mod_unique with i; lia). reflexivity.
Qed.

(** ** Two scales that do not commute *)
Definition quarter : list (list R) := [[0; 1]; [-1; 0]].
Definition quarter_inv : list (list R) := [[0; -1]; [1; 0]].
Lemma quarter_inverse : inverse_matrix 2 quarter quarter_inv.
Proof.
  split; [split; [reflexivity|repeat constructor]|]. split; [split; [reflexivity|repeat constructor]|].
  split; intros i j Hi Hj; destruct i as [|[|i]], j as [|[|j]]; try lia; cbn; ring.
Qed.
Lemma not_commuting x y :
  bind (transform_theta [reverse_scale [true; false]; rotate_scale quarter quarter_inv] [[x; y]])
       (inverse_transform_theta [reverse_scale [true; false]; rotate_scale quarter quarter_inv]) = Ok [[- x; - y]].
Proof.
  cbn [transform_theta inverse_transform_theta sc_transform sc_inverse reverse_scale rotate_scale].
  unfold scale_rows, rotate_rows. rewrite !reverse_signs_map. cbn. unfold vecmat, dot. cbn.
  repeat f_equal; ring.
Qed.
