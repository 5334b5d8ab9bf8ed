(** Proofs: monotone polynomials. *)
From Verif Require Import Base BaseFacts RBase RFacts M_Logit S_Logit P_Logit P_Logit2 P_Logit4 M_Mono S_Mono P_Mono1 P_Mono2 P_Mono4 P_Mono5.
Local Open Scope R_scope.

(** Value of a coefficient list, constant term first. *)
Definition eval (a : list R) (x : R) : R := sumn (length a) (fun j => nth j a 0 * x ^ j).

Lemma sumn_three n p f : (p + 2 < n)%nat -> (forall r, (r < n)%nat -> r <> p -> r <> (p + 1)%nat -> r <> (p + 2)%nat -> f r = 0) ->
  sumn n f = f p + f (p + 1)%nat + f (p + 2)%nat.
Proof.
  intros Hp H. replace n with (p + (3 + (n - p - 3)))%nat by lia. rewrite sumn_split, sumn_split.
  rewrite (sumn_ext p f (fun _ => 0)), sumn_0 by (intros; apply H; lia).
  rewrite (sumn_ext (n - p - 3) _ (fun _ => 0)), sumn_0 by (intros; apply H; lia).
  cbn [sumn]. rewrite Nat.add_0_r. ring.
Qed.
Lemma mp_step_length al be a : length (mp_step al be a) = (length a + 2)%nat.
Proof. unfold mp_step. now rewrite map_length, seq_length. Qed.
Lemma mp_step_nth al be a r : (r < length a + 2)%nat ->
  nth r (mp_step al be a) 0 = sumn (length a) (fun c => mp_matrix al be r c * nth c a 0).
Proof.
  intro Hr. unfold mp_step. etransitivity; [apply nth_map_seq; exact Hr|]. now rewrite rsum_map_seq.
Qed.
Lemma mp_step_eval al be a x : eval (mp_step al be a) x = ((1 - al * x) ^ 2 + be * x ^ 2) * eval a x.
Proof.
  unfold eval. rewrite mp_step_length.
  rewrite (sumn_ext _ _ (fun r => sumn (length a) (fun c => (mp_matrix al be r c * x ^ r) * nth c a 0))).
  2:{ intros r Hr. rewrite mp_step_nth by auto. rewrite <- sumn_scal_r. apply sumn_ext. intros; ring. }
  rewrite sumn_swap. rewrite <- sumn_scal. apply sumn_ext. intros c Hc.
  rewrite sumn_scal_r. rewrite (sumn_three _ c).
  2:{ lia. }
  2:{ intros r Hr H0 H1 H2. unfold mp_matrix.
    destruct (Nat.eqb_spec r c); [contradiction|]. destruct (Nat.eqb_spec r (c + 1)); [contradiction|].
    destruct (Nat.eqb_spec r (c + 2)); [contradiction|]. ring. }
  unfold mp_matrix. rewrite !Nat.eqb_refl.
  destruct (Nat.eqb_spec (c + 1) c); [lia|]. destruct (Nat.eqb_spec (c + 2) c); [lia|]. destruct (Nat.eqb_spec (c + 2) (c + 1)); [lia|].
  rewrite !pow_add. ring.
Qed.
Lemma mp_loop_length n al ta a : length (mp_loop n al ta a) = (length a + 2 * n)%nat.
Proof. induction n as [|n IH]; cbn [mp_loop]; [lia|]. rewrite mp_step_length, IH. lia. Qed.
Lemma factor_pos al be x : 0 < be -> 0 < (1 - al * x) ^ 2 + be * x ^ 2.
Proof.
  intro Hb. destruct (Req_dec x 0) as [->|Hx].
  - replace ((1 - al * 0) ^ 2 + be * 0 ^ 2) with 1 by ring. lra.
  - assert (0 < x ^ 2) by (rewrite <- Rsqr_pow2; now apply Rsqr_pos_lt). assert (0 <= (1 - al * x) ^ 2) by apply pow2_ge_0. nra.
Qed.
Lemma mp_loop_pos n al ta w x : 0 < eval (mp_loop n al ta [softplus w]) x.
Proof.
  induction n as [|n IH]; cbn [mp_loop].
  - unfold eval. cbn. pose proof (softplus_pos w). lra.
  - rewrite mp_step_eval. apply Rmult_lt_0_compat; auto. apply factor_pos, softplus_pos.
Qed.

(** The primitive. *)
Definition primitive (a : list R) (x : R) : R := sumn (length a) (fun j => nth j a 0 / INR (j + 1) * x ^ (j + 1)).
Lemma sumn_derivable n (f f' : nat -> R -> R) x :
  (forall j, (j < n)%nat -> derivable_pt_lim (f j) x (f' j x)) ->
  derivable_pt_lim (fun x => sumn n (fun j => f j x)) x (sumn n (fun j => f' j x)).
Proof.
  induction n as [|n IH]; intro H; cbn [sumn].
  - apply derivable_pt_lim_const.
  - apply (derivable_pt_lim_plus (fun x => sumn n (fun j => f j x)) (f n)); [apply IH; intros; apply H; lia|apply H; lia].
Qed.
Lemma primitive_derivative a x : derivable_pt_lim (primitive a) x (eval a x).
Proof.
  unfold primitive, eval.
  apply (sumn_derivable (length a) (fun j x => nth j a 0 / INR (j + 1) * x ^ (j + 1)) (fun j x => nth j a 0 * x ^ j)).
  intros j _. assert (INR (j + 1) <> 0) by (apply not_0_INR; lia).
  replace (nth j a 0 * x ^ j) with (nth j a 0 / INR (j + 1) * (INR (j + 1) * x ^ pred (j + 1))).
  2:{ replace (pred (j + 1)) with j by lia. field. auto. }
  apply (derivable_pt_lim_scal (fun x => x ^ (j + 1))). apply derivable_pt_lim_pow.
Qed.
Lemma primitive_increasing a : (forall x, 0 < eval a x) -> increasing (primitive a).
Proof.
  intros H x y Hxy. destruct (MVT_cor2 (primitive a) (eval a) x y Hxy) as (c & Hc & _).
  { intros; apply primitive_derivative. }
  pose proof (H c). nra.
Qed.
Lemma mp_primitive_coefs m d o x :
  poly_eval (mp_coefs m d o) x =
  (if mp_masked m d o then 0 else mp_direction m d o) *
  primitive (mp_loop (mp_k m) (fun i => mp_alpha m i d o) (fun i => mp_tau m i d o) [softplus (mp_omega m d o)]) x.
Proof.
  unfold mp_coefs. set (a := mp_loop _ _ _ _). unfold poly_eval, primitive.
  rewrite <- sumn_scal. apply rsum_index.
  - unfold mp_scale. now rewrite !mapi_length, map_length.
  - intros j Hj. rewrite !nth_error_mapi. unfold mp_scale. rewrite nth_error_map, (nth_error_nth_lt a j 0) by auto.
    cbn [option_map]. f_equal. destruct (mp_masked m d o); unfold Rdiv; ring.
Qed.
(** The learned sign of a pair: zero when switched off. *)
Definition mp_sign (m : mpoly) (d o : nat) : R := if mp_masked m d o then 0 else mp_direction m d o.
Lemma poly_monotone m d o x y : x < y ->
  (0 < mp_sign m d o -> poly_eval (mp_coefs m d o) x < poly_eval (mp_coefs m d o) y) /\
  (mp_sign m d o < 0 -> poly_eval (mp_coefs m d o) y < poly_eval (mp_coefs m d o) x) /\
  (mp_sign m d o = 0 -> poly_eval (mp_coefs m d o) y = poly_eval (mp_coefs m d o) x).
Proof.
  intro H. rewrite !mp_primitive_coefs. fold (mp_sign m d o).
  set (a := mp_loop _ _ _ _). assert (primitive a x < primitive a y) by (apply primitive_increasing; auto; intro; apply mp_loop_pos).
  split; [|split]; intro; [nra|nra|]. rewrite H1. ring.
Qed.
Lemma mpoly_forward_nth m x o : (o < mp_out m)%nat -> length x = mp_in m ->
  nth_error (mpoly_forward m x) o =
  Some (sumn (mp_in m) (fun d => poly_eval (mp_coefs m d o) (nth d x 0)) + match mp_intercept m with Some c => c o | None => 0 end).
Proof.
  intros Ho Hx. unfold mpoly_forward. rewrite nth_error_map_seq by auto. cbn [Nat.add]. f_equal. f_equal.
  apply rsum_index; [rewrite mapi_length, firstn_length; lia|].
  intros d Hd. rewrite nth_error_mapi, nth_error_firstn_lt by auto. rewrite (nth_error_nth_lt x d 0) by lia. reflexivity.
Qed.
Lemma sumn_update n (f g : nat -> R) d : (d < n)%nat -> (forall e, (e < n)%nat -> e <> d -> f e = g e) ->
  sumn n g - sumn n f = g d - f d.
Proof.
  intros Hd H. rewrite <- sumn_minus. apply (sumn_single n d (fun k => g k - f k)); auto. intros k Hk Hne. rewrite (H k Hk Hne). ring.
Qed.
Lemma mpoly_forward_monotone m x x' d o : (o < mp_out m)%nat -> length x = mp_in m -> (d < mp_in m)%nat ->
  increases_in d x x' ->
  exists v v', nth_error (mpoly_forward m x) o = Some v /\ nth_error (mpoly_forward m x') o = Some v' /\
    (0 < mp_sign m d o -> v < v') /\ (mp_sign m d o < 0 -> v' < v) /\ (mp_sign m d o = 0 -> v = v').
Proof.
  intros Ho Hx Hd (Hl & Hlt & Heq). rewrite !mpoly_forward_nth by (auto; lia). eexists; eexists; split; [reflexivity|]. split; [reflexivity|].
  assert (E := sumn_update (mp_in m) (fun e => poly_eval (mp_coefs m e o) (nth e x 0)) (fun e => poly_eval (mp_coefs m e o) (nth e x' 0)) d Hd
     ltac:(intros e _ He; cbv beta; now rewrite (Heq e He))). cbv beta in E.
  destruct (poly_monotone m d o _ _ Hlt) as (P1 & P2 & P3).
  split; [|split]; intro Hs; [specialize (P1 Hs)|specialize (P2 Hs)|specialize (P3 Hs)]; lra.
Qed.

(** ** Reported coefficients *)
Lemma mp_step_scale al be a c : mp_step al be (map (fun x => x / c) a) = map (fun x => x / c) (mp_step al be a).
Proof.
  unfold mp_step. rewrite map_length, map_map. apply map_ext. intro r. rewrite !rsum_map_seq.
  rewrite <- sumn_div. apply sumn_ext. intros k Hk. cbn [Nat.add].
  rewrite (nth_indep (map (fun x => x / c) a) 0 (0 / c)) by (rewrite map_length; auto).
  rewrite (map_nth (fun x => x / c)). unfold Rdiv. ring.
Qed.
Lemma mp_loop_reported_eq n al ta a : mp_loop_reported n al ta a = map (fun x => x / INR (fact n)) (mp_loop n al ta a).
Proof.
  induction n as [|n IH]; cbn [mp_loop_reported mp_loop].
  - rewrite <- (map_id a) at 1. apply map_ext. intro x. cbn. field.
  - rewrite IH, mp_step_scale, map_map. apply map_ext. intro x.
    assert (INR (fact n) <> 0) by apply INR_fact_neq_0. assert (INR (n + 1) <> 0) by (apply not_0_INR; lia).
    replace (fact (S n)) with ((n + 1) * fact n)%nat by (cbn; lia). rewrite mult_INR. field. auto.
Qed.
(** A polynomial that vanishes on positive numbers has zero coefficients. *)
Lemma eval_bound n (c : nat -> R) x : 0 <= x <= 1 -> Rabs (sumn n (fun j => c j * x ^ j)) <= sumn n (fun j => Rabs (c j)).
Proof.
  intro Hx. induction n as [|n IH]; cbn [sumn]; [rewrite Rabs_R0; lra|].
  eapply Rle_trans; [apply Rabs_triang|]. apply Rplus_le_compat; auto. rewrite Rabs_mult.
  assert (0 <= x ^ n <= 1) by (split; [apply pow_le; lra|rewrite <- (pow1 n); apply pow_incr; lra]).
  rewrite (Rabs_right (x ^ n)) by lra. pose proof (Rabs_pos (c n)). nra.
Qed.
Lemma zero_polynomial n (c : nat -> R) : (forall x, 0 < x -> sumn n (fun j => c j * x ^ j) = 0) -> forall j, (j < n)%nat -> c j = 0.
Proof.
  revert c. induction n as [|n IH]; intros c H j Hj; [lia|].
  assert (Q : forall x, 0 < x -> c O + x * sumn n (fun j => c (S j) * x ^ j) = 0).
  { intros x Hx. rewrite <- (H x Hx), sumn_S_first. rewrite pow_O, Rmult_1_r. f_equal. rewrite <- sumn_scal. apply sumn_ext. intros; cbn [pow]; ring. }
  assert (H0 : c O = 0).
  { destruct (Req_dec (c O) 0) as [|Hne]; auto. exfalso.
    set (S0 := sumn n (fun j => Rabs (c (S j)))). assert (0 <= S0) by (apply sumn_nonneg; intros; apply Rabs_pos).
    pose proof (Rabs_pos_lt _ Hne) as Hp. set (x := Rmin 1 (Rabs (c O) / (2 * (S0 + 1)))).
    assert (Hx : 0 < x) by (apply Rmin_pos; [lra|apply Rdiv_lt_0_compat; lra]).
    assert (Hx1 : x <= 1) by apply Rmin_l. assert (Hx2 : x <= Rabs (c O) / (2 * (S0 + 1))) by apply Rmin_r.
    pose proof (Q x Hx) as E. pose proof (eval_bound n (fun j => c (S j)) x ltac:(lra)) as B. cbv beta in B. fold S0 in B. clearbody x.
    assert (Rabs (c O) = x * Rabs (sumn n (fun j => c (S j) * x ^ j))).
    { assert (E' : c O = - (x * sumn n (fun j => c (S j) * x ^ j))) by lra. rewrite E' at 1. rewrite Rabs_Ropp, Rabs_mult, (Rabs_right x) by lra. reflexivity. }
    assert (x * Rabs (sumn n (fun j => c (S j) * x ^ j)) <= x * S0) by (apply Rmult_le_compat_l; lra).
    assert (x * (S0 + 1) <= Rabs (c O) / 2).
    { replace (Rabs (c O) / 2) with (Rabs (c O) / (2 * (S0 + 1)) * (S0 + 1)) by (field; lra). apply Rmult_le_compat_r; lra. }
    lra. }
  destruct j as [|j]; auto. apply (IH (fun j => c (S j))); [|lia]. intros x Hx. pose proof (Q x Hx). rewrite H0 in H1. nra.
Qed.
Lemma leading_pos n al ta w : 0 < nth (2 * n) (mp_loop n al ta [softplus w]) 0.
Proof.
  induction n as [|n IH]; cbn [mp_loop]; [cbn; apply softplus_pos|].
  rewrite mp_step_nth by (rewrite mp_loop_length; cbn [length]; lia). rewrite mp_loop_length. cbn [length].
  rewrite (sumn_single _ (2 * n)).
  2:{ lia. }
  2:{ intros k Hk Hne. unfold mp_matrix.
    destruct (Nat.eqb_spec (2 * S n) k); [lia|]. destruct (Nat.eqb_spec (2 * S n) (k + 1)); [lia|].
    destruct (Nat.eqb_spec (2 * S n) (k + 2)); [lia|]. ring. }
  unfold mp_matrix. destruct (Nat.eqb_spec (2 * S n) (2 * n)); [lia|]. destruct (Nat.eqb_spec (2 * S n) (2 * n + 1)); [lia|].
  destruct (Nat.eqb_spec (2 * S n) (2 * n + 2)); [|lia]. apply Rmult_lt_0_compat; auto.
  pose proof (softplus_pos (ta n)). assert (0 <= al n ^ 2) by apply pow2_ge_0. lra.
Qed.
Lemma fact_odd k : (1 <= k)%nat -> fact k <> (2 * k + 1)%nat.
Proof.
  intros Hk E. destruct k as [|[|k]]; [lia|cbn in E; lia|].
  assert (Q : forall j, exists q, fact (S (S j)) = (2 * q)%nat).
  { induction j as [|j [q Hq]]; [exists 1%nat; reflexivity|]. exists ((3 + j) * q)%nat. change (fact (S (S (S j)))) with ((S (S (S j))) * fact (S (S j)))%nat. rewrite Hq. lia. }
  destruct (Q k) as [q Hq]. lia.
Qed.
Lemma mp_reported_eval m d o x :
  poly_eval (mp_reported m d o) x = mp_sign m d o *
  sumn (2 * mp_k m + 1) (fun j => nth j (mp_loop (mp_k m) (fun i => mp_alpha m i d o) (fun i => mp_tau m i d o) [softplus (mp_omega m d o)]) 0
     / INR (fact (mp_k m)) * x ^ (j + 1)).
Proof.
  unfold mp_reported. rewrite mp_loop_reported_eq. set (a := mp_loop _ _ _ _).
  assert (Ha : length a = (2 * mp_k m + 1)%nat) by (unfold a; rewrite mp_loop_length; cbn [length]; lia).
  unfold poly_eval. rewrite <- sumn_scal. apply rsum_index.
  - unfold mp_scale. now rewrite mapi_length, !map_length.
  - intros j Hj. rewrite nth_error_mapi. unfold mp_scale. rewrite !nth_error_map, (nth_error_nth_lt a j 0) by lia.
    cbn [option_map]. f_equal. unfold mp_sign. destruct (mp_masked m d o); unfold Rdiv; ring.
Qed.
Lemma reported_wrong m d o : (1 <= mp_k m)%nat -> mp_sign m d o <> 0 ->
  ~ (forall x, poly_eval (mp_reported m d o) x = poly_eval (mp_coefs m d o) x).
Proof.
  intros Hk Hs H. set (a := mp_loop (mp_k m) (fun i => mp_alpha m i d o) (fun i => mp_tau m i d o) [softplus (mp_omega m d o)]).
  assert (Ha : length a = (2 * mp_k m + 1)%nat) by (unfold a; rewrite mp_loop_length; cbn [length]; lia).
  assert (Z : forall x, 0 < x -> sumn (2 * mp_k m + 1) (fun j => (nth j a 0 / INR (fact (mp_k m)) - nth j a 0 / INR (j + 1)) * x ^ j) = 0).
  { intros x Hx. pose proof (H x) as E. rewrite mp_reported_eval, mp_primitive_coefs in E. fold (mp_sign m d o) in E. fold a in E.
    apply Rmult_eq_reg_l in E; auto. unfold primitive in E. rewrite Ha in E.
    apply Rmult_eq_reg_l with x; [|lra]. rewrite Rmult_0_r, <- sumn_scal.
    transitivity (sumn (2 * mp_k m + 1) (fun j => nth j a 0 / INR (fact (mp_k m)) * x ^ (j + 1)) -
       sumn (2 * mp_k m + 1) (fun j => nth j a 0 / INR (j + 1) * x ^ (j + 1))); [|lra].
    rewrite <- sumn_minus. apply sumn_ext. intros j _. rewrite pow_add. ring. }
  pose proof (zero_polynomial _ _ Z (2 * mp_k m) ltac:(lia)) as E.
  pose proof (leading_pos (mp_k m) (fun i => mp_alpha m i d o) (fun i => mp_tau m i d o) (mp_omega m d o)) as Hp. fold a in Hp.
  assert (F1 : INR (fact (mp_k m)) <> 0) by apply INR_fact_neq_0.
  assert (F2 : INR (2 * mp_k m + 1) <> 0) by (apply not_0_INR; lia).
  apply (fact_odd (mp_k m) Hk). apply INR_eq.
  assert (G : nth (2 * mp_k m) a 0 * (INR (2 * mp_k m + 1) - INR (fact (mp_k m))) = 0).
  { replace (nth (2 * mp_k m) a 0 * (INR (2 * mp_k m + 1) - INR (fact (mp_k m)))) with
      ((nth (2 * mp_k m) a 0 / INR (fact (mp_k m)) - nth (2 * mp_k m) a 0 / INR (2 * mp_k m + 1)) * (INR (fact (mp_k m)) * INR (2 * mp_k m + 1)))
      by (field; auto). rewrite E. ring. }
  apply Rmult_integral in G as [G|G]; lra.
Qed.
Lemma reported_linear m d o x : mp_k m = O -> poly_eval (mp_reported m d o) x = poly_eval (mp_coefs m d o) x.
Proof.
  intro Hk. rewrite mp_reported_eval, mp_primitive_coefs. fold (mp_sign m d o). f_equal. unfold primitive.
  rewrite Hk. cbn. field.
Qed.
Lemma odd_degree degree : mpoly_degree degree = if Nat.odd degree then Ok ((degree - 1) / 2)%nat else Err ValueError.
Proof. unfold mpoly_degree. rewrite <- Nat.negb_even. destruct (Nat.even degree); reflexivity. Qed.
Lemma odd_degree_length degree k d o m : mpoly_degree degree = Ok k -> mp_k m = k -> length (mp_coefs m d o) = degree.
Proof.
  unfold mpoly_degree. destruct (Nat.even degree) eqn:E; [discriminate|]. intro H. assert (Hk : k = ((degree - 1) / 2)%nat) by congruence. clear H. intro Hm.
  assert (Ho : Nat.odd degree = true) by (rewrite <- Nat.negb_even, E; reflexivity).
  apply Nat.odd_spec in Ho as [q Hq].
  unfold mp_coefs, mp_scale. rewrite mapi_length, map_length, mp_loop_length, Hm, Hk. cbn [length].
  subst degree. replace (2 * q + 1 - 1)%nat with (q * 2)%nat by lia. rewrite Nat.div_mul by lia. lia.
Qed.

(** ** The model *)
Definition mpm_ok (m : mpm) : Prop :=
  q_cats m <> [] /\ Forall (fun K => (1 <= K)%nat) (q_cats m) /\
  mp_shared (q_poly m) = (if q_sep_items m then 1%nat else q_max m) /\
  mp_out (q_poly m) = (q_items m * mp_shared (q_poly m))%nat /\
  (forall d i k, (i < q_items m)%nat -> (k < mp_shared (q_poly m))%nat ->
     mp_masked (q_poly m) d (i * mp_shared (q_poly m) + k) = mp_masked (q_poly m) d (i * mp_shared (q_poly m))).
Lemma mpm_init_ok cats lv rel degree sep neg dir0 m : mpm_init cats lv rel degree sep neg dir0 = Ok m ->
  cats <> [] -> Forall (fun K => (1 <= K)%nat) cats ->
  mpm_ok m /\ q_cats m = cats /\ mp_in (q_poly m) = lv /\ Nat.odd degree = true.
Proof.
  intros H Hc HF. unfold mpm_init in H. destruct (relationships (length cats) lv rel) as [r|]; [|discriminate]. cbn [bind] in H.
  rewrite odd_degree in H. destruct (Nat.odd degree) eqn:E; [|discriminate]. cbn [bind] in H. injection H as <-.
  split; [|cbn; auto]. unfold mpm_ok. cbn [q_cats q_poly mp_shared q_sep_items mp_out].
  split; [auto|]. split; [auto|]. split; [reflexivity|]. split; [reflexivity|].
  intros d i k Hi Hk. unfold mp_masked. cbn [mp_rel]. set (s := if sep then 1%nat else list_max cats) in *.
  assert (Q : ((i * s + k) / s = i * s / s)%nat).
  { rewrite Nat.div_mul by lia. rewrite Nat.add_comm, Nat.div_add, Nat.div_small by lia. reflexivity. }
  now rewrite Q.
Qed.
Lemma same_mpm_ok m m' : same_mpm m m' -> mpm_ok m -> mpm_ok m'.
Proof.
  intros (E1 & E2 & E3 & E4 & E5 & E6 & E7 & E8 & E9 & E10) (H1 & H2 & H3 & H4 & H5).
  unfold mpm_ok, q_max, q_items, mp_masked in *. rewrite E1, E2, E6, E7, E9. auto.
Qed.
Definition mpm_sign (m : mpm) (i d : nat) : R := mp_sign (q_poly m) d (i * mp_shared (q_poly m)).
Lemma mpm_sign_unit m i d k : mpm_ok m -> (i < q_items m)%nat -> (k < mp_shared (q_poly m))%nat ->
  mp_sign (q_poly m) d (i * mp_shared (q_poly m) + k) = mpm_sign m i d.
Proof.
  intros (H1 & H2 & H3 & H4 & H5) Hi Hk. unfold mpm_sign, mp_sign. rewrite H5 by auto.
  destruct (mp_masked (q_poly m) d _); [reflexivity|]. unfold mp_direction.
  assert (E : ((i * mp_shared (q_poly m) + k) / mp_shared (q_poly m) = i * mp_shared (q_poly m) / mp_shared (q_poly m))%nat).
  { rewrite Nat.div_mul by lia. rewrite Nat.add_comm, Nat.div_add, Nat.div_small by lia. reflexivity. }
  now rewrite E.
Qed.
Definition mpm_unit (m : mpm) (t : list R) (i k : nat) : R :=
  nth (i * mp_shared (q_poly m) + (if q_sep_items m then 0 else k)) (mpoly_forward (q_poly m) t) 0.
Lemma mpm_forward1_table m t : mpm_ok m ->
  mpm_forward1 m t = cumulative_logits (q_cats m) (q_bias m)
    (concat (map (fun i => map (mpm_unit m t i) (seq 0 (list_max (q_cats m)))) (seq 0 (length (q_cats m))))).
Proof.
  intros (H1 & H2 & H3 & H4 & H5). unfold mpm_forward1. f_equal.
  assert (Hl : length (mpoly_forward (q_poly m) t) = (q_items m * mp_shared (q_poly m))%nat) by (unfold mpoly_forward; rewrite map_length, seq_length; auto).
  apply table_ext.
  - unfold q_items, q_max in *. destruct (q_sep_items m); [rewrite repeat_interleave_length|]; nia.
  - intros i k Hi Hk. unfold mpm_unit, q_items, q_max in *. destruct (q_sep_items m).
    + rewrite nth_error_repeat_interleave by auto. rewrite (nth_error_nth_lt _ i 0) by nia. do 2 f_equal. nia.
    + rewrite H3 in *. apply nth_error_nth_lt. nia.
Qed.
Lemma mpm_unit_monotone m t t' d i k : mpm_ok m -> length t = mp_in (q_poly m) -> (d < mp_in (q_poly m))%nat ->
  (i < q_items m)%nat -> (k < q_max m)%nat -> increases_in d t t' ->
  (0 < mpm_sign m i d -> mpm_unit m t i k < mpm_unit m t' i k) /\
  (mpm_sign m i d < 0 -> mpm_unit m t' i k < mpm_unit m t i k) /\
  (mpm_sign m i d = 0 -> mpm_unit m t i k = mpm_unit m t' i k).
Proof.
  intros Hok Ht Hd Hi Hk Hinc. pose proof Hok as (H1 & H2 & H3 & H4 & H5). unfold mpm_unit.
  set (j := if q_sep_items m then 0%nat else k).
  assert (Hj : (j < mp_shared (q_poly m))%nat) by (rewrite H3; unfold j; destruct (q_sep_items m); lia).
  destruct (mpoly_forward_monotone (q_poly m) t t' d (i * mp_shared (q_poly m) + j)) as (v & v' & Hv & Hv' & P); auto.
  { rewrite H4. nia. }
  rewrite (nth_error_nth _ _ 0 Hv), (nth_error_nth _ _ 0 Hv'). rewrite mpm_sign_unit in P by auto. exact P.
Qed.
(** Expected item score from the logit pattern. *)
Lemma expected_pattern items M (out : list (list ext)) r row i K z : 
  Forall (fun o => length o = (items * M)%nat) out -> nth_error out r = Some row -> (i < items)%nat -> (1 <= K <= M)%nat ->
  (forall k, (k < M)%nat -> nth_error row (i * M + k) = Some (if (k <? K)%nat then Fin (z k) else NInf)) ->
  exists es, expected_item_scores items M None (probabilities_from_output items M out) = Ok es /\
    at2 es r i = Some (Some (sumn K (fun k => INR k * category_probability K z k))).
Proof.
  intros HF Hr Hi HK H.
  destruct (expected_item_none items M (probabilities_from_output items M out) r i
    (fun k => if (k <? K)%nat then category_probability K z k else 0) Hi) as (es & He & Ha); [|lia|].
  - intros k Hk. apply (probabilities_pattern items M out r row i K z); auto. lia.
  - exists es. split; [auto|]. rewrite Ha. rewrite <- (truncated_average K M z HK). reflexivity.
Qed.
Lemma mpm_expected m thetas r r' t t' i d K : mpm_ok m ->
  Forall (fun t => length t = mp_in (q_poly m)) thetas -> nth_error thetas r = Some t -> nth_error thetas r' = Some t' ->
  (d < mp_in (q_poly m))%nat -> nth_error (q_cats m) i = Some K -> increases_in d t t' ->
  exists es e e', expected_item_scores (q_items m) (q_max m) None (mpm_probabilities m thetas) = Ok es /\
    at2 es r i = Some (Some e) /\ at2 es r' i = Some (Some e') /\
    (0 < mpm_sign m i d -> e <= e' /\ ((2 <= K)%nat -> e < e')) /\
    (mpm_sign m i d < 0 -> e' <= e /\ ((2 <= K)%nat -> e' < e)) /\
    (mpm_sign m i d = 0 -> e = e').
Proof.
  intros Hok HF Hr Hr' Hd HK Hinc. pose proof Hok as (H1 & H2 & _).
  pose proof (list_max_pos _ H1 H2) as HM. fold (q_max m) in HM.
  assert (Hi : (i < q_items m)%nat) by (apply nth_error_Some; congruence).
  assert (HKM : (1 <= K <= q_max m)%nat).
  { rewrite Forall_forall in H2. split; [apply H2; eapply nth_error_In; eauto|]. apply list_max_bound. eapply nth_error_In; eauto. }
  set (out := map (mpm_forward1 m) thetas).
  assert (HFl : Forall (fun o : list ext => length o = (q_items m * q_max m)%nat) out).
  { apply Forall_forall. intros o Ho. apply in_map_iff in Ho as (a & <- & _). rewrite mpm_forward1_table by auto. now apply cumulative_length. }
  set (z := fun a k => sumn (S k) (mpm_unit m a i) + bias_at (q_cats m) (q_bias m) i k).
  assert (Hrow : forall a k, (k < q_max m)%nat -> nth_error (mpm_forward1 m a) (i * q_max m + k) =
      Some (if (k <? K)%nat then Fin (z a k) else NInf)).
  { intros a k Hk. rewrite mpm_forward1_table by auto. now apply cumulative_nth. }
  destruct (expected_pattern (q_items m) (q_max m) out r (mpm_forward1 m t) i K (z t)) as (es & He & Ha); auto.
  { unfold out. now rewrite nth_error_map, Hr. }
  destruct (expected_pattern (q_items m) (q_max m) out r' (mpm_forward1 m t') i K (z t')) as (es' & He' & Ha'); auto.
  { unfold out. now rewrite nth_error_map, Hr'. }
  rewrite He in He'. injection He' as <-.
  exists es. eexists; eexists. split; [exact He|]. split; [exact Ha|]. split; [exact Ha'|].
  assert (Ht : length t = mp_in (q_poly m)) by (rewrite Forall_forall in HF; apply HF; eapply nth_error_In; eauto).
  assert (Hdiff : forall a k, z a (S k) - z a k = mpm_unit m a i (S k) + (bias_at (q_cats m) (q_bias m) i (S k) - bias_at (q_cats m) (q_bias m) i k)).
  { intros a k. unfold z. cbn [sumn]. ring. }
  assert (U : forall k, (k < q_max m)%nat ->  (0 < mpm_sign m i d -> mpm_unit m t i k < mpm_unit m t' i k) /\
  (mpm_sign m i d < 0 -> mpm_unit m t' i k < mpm_unit m t i k) /\
  (mpm_sign m i d = 0 -> mpm_unit m t i k = mpm_unit m t' i k)) by (intros; now apply mpm_unit_monotone).
  split; [|split]; intro Hs.
  - split; [apply average_monotone; [lia|]|intro; apply average_strict; [auto|]]; intros k Hk; rewrite !Hdiff;
      pose proof (proj1 (U (S k) ltac:(lia)) Hs); lra.
  - split; [apply average_monotone; [lia|]|intro; apply average_strict; [auto|]]; intros k Hk; rewrite !Hdiff;
      pose proof (proj1 (proj2 (U (S k) ltac:(lia))) Hs); lra.
  - apply Rle_antisym; (apply average_monotone; [lia|]; intros k Hk; rewrite !Hdiff;
      pose proof (proj2 (proj2 (U (S k) ltac:(lia))) Hs); lra).
Qed.
Lemma rsign_spec x : (rsign x = 1%Z <-> 0 < x) /\ (rsign x = (-1)%Z <-> x < 0) /\ (rsign x = 0%Z <-> x = 0).
Proof. unfold rsign. destruct (Rlt_dec 0 x), (Rlt_dec x 0); repeat split; intro; try lra; try lia; try reflexivity; try discriminate. Qed.
(** Reported directions against the signs. *)
Lemma mpm_directions_sign m i d : mpm_ok m -> (i < q_items m)%nat ->
  (mpm_directions m i d = 1%Z -> 0 <= mpm_sign m i d) /\
  (mpm_directions m i d = (-1)%Z -> mpm_sign m i d <= 0) /\ (mpm_directions m i d = 0%Z -> mpm_sign m i d = 0).
Proof.
  intros (H1 & H2 & H3 & H4 & H5) Hi. pose proof (list_max_pos _ H1 H2) as HM.
  assert (Hs : (0 < mp_shared (q_poly m))%nat) by (rewrite H3; unfold q_max; destruct (q_sep_items m); lia).
  unfold mpm_directions, mpm_sign, mp_sign, mp_direction. destruct (mp_dir (q_poly m)) as [dir|].
  - rewrite Nat.div_mul by lia. set (v := dir d i * _). destruct (rsign_spec v) as (S1 & S2 & S3).
    destruct (mp_masked (q_poly m) d (i * mp_shared (q_poly m))); repeat split; intro H; try lra.
    + apply S1 in H. lra.
    + apply S2 in H. lra.
    + now apply S3.
  - destruct (mp_masked (q_poly m) d (i * mp_shared (q_poly m))); repeat split; intro; try lra; discriminate.
Qed.

Lemma mpm_directions_strict m i d : mpm_ok m -> (i < q_items m)%nat ->
  mp_masked (q_poly m) d (i * mp_shared (q_poly m)) = false ->
  (mpm_directions m i d = 1%Z -> 0 < mpm_sign m i d) /\ (mpm_directions m i d = (-1)%Z -> mpm_sign m i d < 0).
Proof.
  intros (H1 & H2 & H3 & H4 & H5) Hi Hm. pose proof (list_max_pos _ H1 H2) as HM.
  assert (Hs : (0 < mp_shared (q_poly m))%nat) by (rewrite H3; unfold q_max; destruct (q_sep_items m); lia).
  unfold mpm_directions, mpm_sign, mp_sign, mp_direction. rewrite Hm. destruct (mp_dir (q_poly m)) as [dir|].
  - rewrite Nat.div_mul by lia. unfold mp_masked in Hm. set (v := dir d i * _). assert (Ev : v = dir d i) by (unfold v; destruct (mp_rel (q_poly m)) as [rl|]; [apply negb_false_iff in Hm; rewrite Hm|]; cbn; ring). rewrite Ev. destruct (rsign_spec (dir d i)) as (S1 & S2 & S3). split; intro H; [now apply S1|now apply S2].
  - split; intro H; [lra|discriminate].
Qed.
Lemma mp_loop_eval n al ta w x : eval (mp_loop n al ta [softplus w]) x =
  softplus w * fold_right Rmult 1 (map (fun i => (1 - al i * x) ^ 2 + softplus (ta i) * x ^ 2) (seq 0 n)).
Proof.
  assert (F : forall l u, fold_right Rmult u l = fold_right Rmult 1 l * u).
  { induction l as [|y l IH]; intro u; cbn [fold_right]; [ring|]. rewrite IH. ring. }
  induction n as [|n IH]; cbn [mp_loop].
  - unfold eval. cbn. ring.
  - rewrite mp_step_eval, IH, seq_S, map_app, fold_right_app. cbn [map fold_right Nat.add].
    rewrite (F _ (_ * 1)). ring.
Qed.
Lemma poly_derivative : forall m d o x, mp_masked m d o = false ->
  derivable_pt_lim (poly_eval (mp_coefs m d o)) x
    (mp_direction m d o * (softplus (mp_omega m d o) *
       fold_right Rmult 1 (map (fun i => (1 - mp_alpha m i d o * x) ^ 2 + softplus (mp_tau m i d o) * x ^ 2) (seq 0 (mp_k m))))).
Proof.
  intros m d o x Hm. rewrite <- mp_loop_eval.
  set (a := mp_loop _ _ _ _).
  assert (E : forall y, poly_eval (mp_coefs m d o) y = mp_direction m d o * primitive a y).
  { intro y. rewrite mp_primitive_coefs, Hm. reflexivity. }
  pose proof (derivable_pt_lim_scal (primitive a) (mp_direction m d o) x _ (primitive_derivative a x)) as D.
  intros eps He. destruct (D eps He) as [del Hd]. exists del. intros h Hh Hlt. rewrite !E. exact (Hd h Hh Hlt).
Qed.
