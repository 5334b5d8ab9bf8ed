(** Credible intervals and posterior samples of the variational autoencoder. *)
From Verif Require Import Base BaseFacts RBase RFacts M_Data S_Data P_Data M_Logit S_Logit M_Lik M_Scale S_Scale M_Est M_Score S_Score P_Score1 P_Score2 M_Pop S_Pop.
From Coq Require Import QArith.
Import List.
Local Open Scope R_scope.

Lemma at2_zip {A B C} (f : A -> B -> C) a b r j : at2 (zip_with (zip_with f) a b) r j = match at2 a r j, at2 b r j with Some x, Some y => Some (f x y) | _, _ => None end.
Proof.
  unfold at2. rewrite nth_error_zip_with. destruct (nth_error a r) as [u|]; [|reflexivity]. destruct (nth_error b r) as [v|].
  - rewrite nth_error_zip_with. reflexivity.
  - destruct (nth_error u j); reflexivity.
Qed.
Lemma same_shape_at a b r j x : same_shape a b -> at2 a r j = Some x -> exists y, at2 b r j = Some y.
Proof.
  intros [HL H] Hx. unfold at2 in *. destruct (nth_error a r) as [u|] eqn:E; [|discriminate]. assert (r < length a)%nat by (apply nth_error_Some; congruence).
  destruct (nth_error b r) as [v|] eqn:E2; [|apply nth_error_None in E2; lia]. specialize (H r u v E E2).
  assert (j < length u)%nat by (apply nth_error_Some; congruence). destruct (nth_error v j) as [y|] eqn:E3; [eauto|apply nth_error_None in E3; lia].
Qed.

Section interval.
  Variables (erf : R -> R) (erfinv : R -> fl).
  Hypothesis HE : inverse_erf erf erfinv.
  Lemma erf_lt_inv x y : erf x < erf y -> x < y.
  Proof. destruct HE as (H & _). intro L. destruct (Rtotal_order x y) as [|[->|G]]; auto; [lra|]. apply H in G. lra. Qed.
  Lemma erf_inj x y : erf x = erf y -> x = y.
  Proof. destruct HE as (H & _). intro L. destruct (Rtotal_order x y) as [G|[->|G]]; auto; apply H in G; lra. Qed.
  Lemma erf_0 : erf 0 = 0.
  Proof. destruct HE as (_ & H & _). pose proof (H 0) as E. rewrite Ropp_0 in E. lra. Qed.
  Lemma sqrt2 : 0 < sqrt 2.
  Proof. apply sqrt_lt_R0. lra. Qed.
  Lemma icdf_value mu s p : 0 < s -> 0 < p < 1 -> exists x, normal_icdf erfinv mu s p = Some (Fin x) /\ normal_cdf erf mu s x = p /\ exists z, erf z = 2 * p - 1 /\ x = mu + s * z * sqrt 2.
  Proof.
    intros Hs Hp. destruct HE as (_ & _ & H & _). destruct (H (2 * p - 1) ltac:(lra)) as (z & E & Ez). unfold normal_icdf. rewrite E. eexists. split; [reflexivity|].
    split; [|exists z; auto]. unfold normal_cdf. pose proof sqrt2. replace ((mu + s * z * sqrt 2 - mu) / (s * sqrt 2)) with z by (field; lra). rewrite Ez. field.
  Qed.
  Lemma interval_cell alpha mu v : 0 < alpha < 1 ->
    exists lo up, normal_icdf erfinv mu (exp (/ 2 * v)) (alpha / 2) = Some (Fin lo) /\ normal_icdf erfinv mu (exp (/ 2 * v)) (1 - alpha / 2) = Some (Fin up) /\
      lo < mu < up /\ mu - lo = up - mu /\ normal_cdf erf mu (exp (/ 2 * v)) lo = alpha / 2 /\ normal_cdf erf mu (exp (/ 2 * v)) up = 1 - alpha / 2.
  Proof.
    intro Ha. pose proof (exp_pos (/ 2 * v)) as Hs. set (s := exp (/ 2 * v)) in *.
    destruct (icdf_value mu s (alpha / 2) Hs ltac:(lra)) as (lo & E1 & C1 & z1 & Z1 & X1). destruct (icdf_value mu s (1 - alpha / 2) Hs ltac:(lra)) as (up & E2 & C2 & z2 & Z2 & X2).
    exists lo, up. split; [exact E1|]. split; [exact E2|].
    assert (Zs : z2 = - z1). { apply erf_inj. destruct HE as (_ & H & _). rewrite H, Z1, Z2. lra. }
    assert (Zn : z1 < 0). { apply erf_lt_inv. rewrite Z1, erf_0. lra. }
    pose proof sqrt2. assert (s * z1 * sqrt 2 < 0). { rewrite Rmult_assoc. assert (z1 * sqrt 2 < 0) by nra. nra. }
    split; [subst lo up z2; split; nra|]. split; [subst lo up z2; ring|]. auto.
  Qed.
  Lemma interval_nested alpha alpha' mu v lo up lo' up' : 0 < alpha < alpha' -> alpha' < 1 ->
    normal_icdf erfinv mu (exp (/ 2 * v)) (alpha / 2) = Some (Fin lo) -> normal_icdf erfinv mu (exp (/ 2 * v)) (1 - alpha / 2) = Some (Fin up) ->
    normal_icdf erfinv mu (exp (/ 2 * v)) (alpha' / 2) = Some (Fin lo') -> normal_icdf erfinv mu (exp (/ 2 * v)) (1 - alpha' / 2) = Some (Fin up') ->
    lo < lo' /\ up' < up.
  Proof.
    intros Ha Ha'. pose proof (exp_pos (/ 2 * v)) as Hs. set (s := exp (/ 2 * v)) in *. intros E1 E2 E3 E4. pose proof sqrt2 as H2.
    assert (Hsq : 0 < s * sqrt 2) by nra.
    destruct (icdf_value mu s (alpha / 2) Hs ltac:(lra)) as (a & F1 & _ & z1 & Z1 & X1). destruct (icdf_value mu s (1 - alpha / 2) Hs ltac:(lra)) as (b & F2 & _ & z2 & Z2 & X2).
    destruct (icdf_value mu s (alpha' / 2) Hs ltac:(lra)) as (a' & F3 & _ & z3 & Z3 & X3). destruct (icdf_value mu s (1 - alpha' / 2) Hs ltac:(lra)) as (b' & F4 & _ & z4 & Z4 & X4).
    assert (lo = a) by congruence. assert (up = b) by congruence. assert (lo' = a') by congruence. assert (up' = b') by congruence. subst lo up lo' up' a b a' b'.
    assert (z1 < z3) by (apply erf_lt_inv; rewrite Z1, Z3; lra). assert (z4 < z2) by (apply erf_lt_inv; rewrite Z2, Z4; lra).
    assert (0 < (z3 - z1) * (s * sqrt 2)) by (apply Rmult_lt_0_compat; lra). assert (0 < (z2 - z4) * (s * sqrt 2)) by (apply Rmult_lt_0_compat; lra). split; nra.
  Qed.
  Lemma interval_crossed alpha mu v : 1 < alpha < 2 ->
    exists lo up, normal_icdf erfinv mu (exp (/ 2 * v)) (alpha / 2) = Some (Fin lo) /\ normal_icdf erfinv mu (exp (/ 2 * v)) (1 - alpha / 2) = Some (Fin up) /\ up < mu < lo.
  Proof.
    intro Ha. destruct (interval_cell (2 - alpha) mu v ltac:(lra)) as (lo & up & E1 & E2 & HH & _). exists up, lo.
    replace (alpha / 2) with (1 - (2 - alpha) / 2) by field. split; [exact E2|]. replace (1 - (1 - (2 - alpha) / 2)) with ((2 - alpha) / 2) by ring. split; [exact E1|]. lra.
  Qed.
  Lemma interval_nan alpha mu s : alpha < 0 \/ 2 < alpha -> normal_icdf erfinv mu s (alpha / 2) = None /\ normal_icdf erfinv mu s (1 - alpha / 2) = None.
  Proof. intro Ha. destruct HE as (_ & _ & _ & _ & _ & H). unfold normal_icdf. rewrite !H by lra. auto. Qed.
End interval.

(** ** Samples *)
Lemma reparameterize_at mean logvar eps r j mu v e : at2 mean r j = Some mu -> at2 logvar r j = Some v -> at2 eps r j = Some e ->
  at2 (reparameterize mean logvar eps) r j = Some (mu + e * exp (/ 2 * v)).
Proof.
  unfold at2, reparameterize. intros H1 H2 H3. rewrite nth_error_zip_with.
  destruct (nth_error mean r) as [a|] eqn:E1; [|discriminate]. destruct (nth_error logvar r) as [b|] eqn:E2; [|discriminate]. destruct (nth_error eps r) as [c|] eqn:E3; [|discriminate].
  assert (EC : forall {X Y} (l : list X) (l' : list Y) n x y, nth_error l n = Some x -> nth_error l' n = Some y -> nth_error (combine l l') n = Some (x, y)).
  { intros X Y. induction l as [|p l IH]; intros [|q l'] [|n] x y HA HB; try discriminate; cbn in *; [congruence|now apply IH]. }
  rewrite (EC _ _ _ _ _ _ _ E1 E2). cbn [fst snd]. rewrite nth_error_zip_with, (EC _ _ _ _ _ _ _ H1 H2), H3. reflexivity.
Qed.
Lemma reparameterize_rows mean logvar eps n : length mean = n -> length logvar = n -> length eps = n -> length (reparameterize mean logvar eps) = n.
Proof. intros H1 H2 H3. unfold reparameterize. rewrite zip_with_length, combine_length. lia. Qed.

Lemma sample_rows draw pick eps encode a key cats n d rows d' mean_of logvar_of :
  sampling_input draw a key cats d = (Ok rows, d') -> rows <> [] ->
  (forall x, encode x = Ok (map mean_of x, map logvar_of x)) -> length eps = n ->
  exists out, sample_latent_variables draw pick eps encode a key cats n d = (Ok out, d') /\ length out = n /\
    forall s j mu v e, nth_error (mean_of (nth (pick s) rows [])) j = Some mu -> nth_error (logvar_of (nth (pick s) rows [])) j = Some v -> at2 eps s j = Some e ->
      at2 out s j = Some (mu + e * exp (/ 2 * v)).
Proof.
  intros Hi Hne He Hl. unfold sample_latent_variables. rewrite Hi. cbn [bind]. destruct rows as [|row0 rows]; [congruence|]. rewrite He. cbn [bind fst snd]. eexists. split; [reflexivity|]. split.
  - apply reparameterize_rows; rewrite ?map_length, ?seq_length; auto.
  - intros s j mu v e H1 H2 H3. assert (Hs : (s < n)%nat). { rewrite <- Hl. unfold at2 in H3. destruct (nth_error eps s) eqn:E; [|discriminate]. apply nth_error_Some. congruence. }
    apply reparameterize_at; [| |exact H3]; unfold at2; rewrite map_map, nth_error_map_seq by auto; cbn [Nat.add]; assumption.
Qed.
Lemma sample_empty draw pick eps encode a key cats n d d' : sampling_input draw a key cats d = (Ok [], d') ->
  sample_latent_variables draw pick eps encode a key cats n d = (Err RuntimeError, d').
Proof. intro H. unfold sample_latent_variables. rewrite H. reflexivity. Qed.

(** Not one-hot: the raw cells. *)
Lemma vae_raw draw m key cats d : sampling_input draw (vae_fitted false m vae_new) key cats d = (Ok (map (map to_q) (m_rows d)), d).
Proof. reflexivity. Qed.
Lemma vae_trained_zero draw key cats d r c x : at_ (m_rows d) r c = Some x -> Missing x ->
  exists y, fst (train_input draw false (Some IZero) key cats d) = Ok y /\ at_ y r c = Some (Some 0%Q) /\
    at_ (map (map to_q) (m_rows d)) r c = Some (to_q x) /\ (to_q x = None \/ to_q x = Some (inject_Z (-1))).
Proof.
  intros Hx Hm. cbn [train_input fst]. unfold impute_internal. cbn [fst bind]. eexists. split; [reflexivity|]. split.
  - unfold zero_fill. rewrite at_map, at_map, Hx. cbn [option_map]. destruct Hm as [->| ->]; reflexivity.
  - split; [rewrite at_map, Hx; reflexivity|]. destruct Hm as [->| ->]; [left|right]; reflexivity.
Qed.
Lemma sampling_data draw a key cats d : snd (sampling_input draw a key cats d) = match al_one_hot a, al_imputation a with Some true, None => snd (one_hot_encode d cats) | _, _ => d end
  \/ (al_one_hot a = None).
Proof.
  unfold sampling_input. destruct (al_one_hot a) as [[|]|]; [left|left|right; reflexivity]; destruct (al_imputation a); try reflexivity.
  unfold train_input. destruct (one_hot_encode d cats). reflexivity.
Qed.
