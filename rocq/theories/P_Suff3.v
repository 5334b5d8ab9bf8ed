(** The EAP scores of a row, whatever the algorithm. *)
From Verif Require Import Base BaseFacts RBase RFacts M_Data M_CV M_Logit M_Lik M_Est P_CV P_Logit P_Est1 P_Est2 P_Est3 P_Est4 P_Est5 P_Est6 P_Suff1 P_Suff2 S_Logit S_Lik S_Est S_Suff.
Import List.
Local Open Scope R_scope.

Lemma product_nonempty {V} (ls : list (list V)) : Forall (fun l => l <> []) ls -> product ls <> [].
Proof.
  intros H E. apply (f_equal (@length _)) in E. rewrite product_length in E. cbn [length] in E. revert E. induction H as [|l ls Hl H IH]; cbn [map fold_right]; [lia|]. destruct l; [congruence|]. cbn [length]. nia.
Qed.
Lemma linspace_nonempty lo hi n : (0 < n)%nat -> linspace lo hi n <> [].
Proof. intros H E. pose proof (linspace_first lo hi n H) as I. rewrite E in I. destruct I. Qed.
Definition score_row (p : list R -> nat -> nat -> R) (lv : nat) (grid : list (list R)) (prior : list R -> R) (row : list cell) : list fl :=
  map (fun d => Some (Fin (posterior_mean p grid prior row d))) (seq 0 lv).
Lemma eap_rows mvn m p a points data out : library_model m p -> legal_data (em_cats m) data -> data <> [] -> (0 < eap_points m points)%nat ->
  eap_theta_scores mvn m a points (Wide (em_items m) data) = Ok out ->
  exists grid prior, grid <> [] /\ Forall (fun t => length t = em_lv m) grid /\ (forall t, 0 < prior t) /\
    out = map (score_row p (em_lv m) grid prior) data /\
    (em_lv m = 1%nat -> grid_spread m a points -> exists t t', In t grid /\ In t' grid /\ nth 0 t 0 < nth 0 t' 0).
Proof.
  intros Hm Hd Hne Hg H. unfold eap_theta_scores in H. destruct (4 <? em_lv m)%nat; [discriminate|]. fold (eap_points m points) in H. set (g := eap_points m points) in *.
  assert (FIN : forall grid cov, Forall (fun t => length t = em_lv m) grid -> grid <> [] ->
    bind (mvn cov) (fun logpdf => eap_scores m grid (map (fun t => Some (Fin (logpdf t))) grid) (Wide (em_items m) data)) = Ok out ->
    exists prior : list R -> R, (forall t, 0 < prior t) /\ out = map (score_row p (em_lv m) grid prior) data).
  { intros grid cov HF Hgne E. destruct (mvn cov) as [logpdf|e]; [|discriminate]. cbn [bind] in E. exists (fun t => exp (logpdf t)). split; [intro; apply exp_pos|].
    assert (E2 : eap_scores m grid (map (fun t => Some (Fin (logpdf t))) grid) (Wide (em_items m) data) = Ok (map (score_row p (em_lv m) grid (fun t => exp (logpdf t))) data)); [|congruence].
    apply (eap_posterior_mean m p grid logpdf data); auto; [now apply library_has_probabilities|apply flat_rowwise; now apply (library_flat m p)|now apply (library_items m p)|destruct grid; [congruence|cbn [length]; lia]|].
    apply Forall_forall. intros row Hrow. destruct grid as [|t ts]; [congruence|]. left. apply (library_likelihood m p); auto.
    unfold legal_data in Hd. rewrite Forall_forall in Hd. now apply Hd. }
  destruct (al_training a) as [[scores|]|] eqn:Ea; [|discriminate|].
  - destruct (theta_grid (em_lv m) scores g) as [grid|e] eqn:Eg; [|discriminate]. cbn [bind fst snd] in H.
    assert (Hs : scores <> []) by (intros ->; discriminate).
    assert (HF : Forall (fun t => length t = em_lv m) grid) by (apply Forall_forall; intros t Ht; now apply (in_grid (em_lv m) g scores grid Hs Eg) in Ht as [? _]).
    assert (Hgne : grid <> []).
    { intro E. pose proof (grid_length (em_lv m) g scores grid Hs Eg) as L. rewrite E in L. cbn [length] in L. symmetry in L. apply Nat.pow_eq_0_iff in L. lia. }
    destruct (FIN grid _ HF Hgne H) as (prior & Hp & Eo). exists grid, prior. repeat split; auto. intros E1 [Hg2 HS]. rewrite Ea in HS. destruct HS as (s & s' & I1 & I2 & Hlt). fold g in Hg2.
    destruct (grid_corner (em_lv m) g scores grid Hs Eg (fun _ => false) Hg2) as (t & It & Ht). destruct (grid_corner (em_lv m) g scores grid Hs Eg (fun _ => true) Hg2) as (t' & It' & Ht'). specialize (Ht O ltac:(lia)). specialize (Ht' O ltac:(lia)). cbv zeta beta iota in Ht, Ht'. exists t, t'. repeat split; auto. rewrite Ht, Ht'.
    assert (Hcn : column 0 0 scores <> []) by (unfold column; destruct scores; [congruence|discriminate]).
    pose proof (proj2 (rmin_list_spec _ Hcn) (nth 0 s 0) ltac:(unfold column; apply (in_map (fun r => nth 0 r 0)); exact I1)). pose proof (proj2 (rmax_list_spec _ Hcn) (nth 0 s' 0) ltac:(unfold column; apply (in_map (fun r => nth 0 r 0)); exact I2)). lra.
  - set (grid := product (repeat (linspace (-3) 3 g) (em_lv m))) in *.
    assert (HF : Forall (fun t => length t = em_lv m) grid) by (apply Forall_forall; intros t Ht; apply in_product in Ht; apply Forall2_len in Ht; now rewrite repeat_length in Ht).
    assert (Hgne : grid <> []) by (apply product_nonempty; apply Forall_forall; intros l Hl; apply repeat_spec in Hl as ->; now apply linspace_nonempty).
    assert (exists prior : list R -> R, (forall t, 0 < prior t) /\ out = map (score_row p (em_lv m) grid prior) data) as (prior & Hp & Eo).
    { destruct (al_covariance a) as [[c|]|]; cbn [bind fst snd] in H; [|discriminate|]; eapply FIN; eauto. }
    exists grid, prior. repeat split; auto. intros E1 [Hg2 _]. fold g in Hg2. exists [-3], [3]. unfold grid. rewrite E1. cbn [repeat]. repeat split; [| |cbn [nth]; lra]; apply in_product; repeat constructor; [now apply linspace_first|now apply linspace_last].
Qed.
Lemma one_point lv t : lv = 1%nat -> length t = lv -> t = [nth 0 t 0].
Proof. intros -> H. destruct t as [|x [|]]; try discriminate. reflexivity. Qed.

(** Equal up to a constant factor: equal means. *)
Lemma mean_scaled p grid prior row row' d c : grid <> [] -> (forall t, In t grid -> 0 < prior t * likelihood p t row) -> 0 < c ->
  (forall t, In t grid -> likelihood p t row' = c * likelihood p t row) -> posterior_mean p grid prior row' d = posterior_mean p grid prior row d.
Proof.
  intros Hne Hp Hc E. unfold posterior_mean.
  assert (S : forall f : list R -> R, rsum (map (fun t => c * f t) grid) = c * rsum (map f grid)) by (intro f; clear; induction grid as [|t l IH]; cbn [map rsum]; [ring|rewrite IH; ring]).
  rewrite (map_ext_in (fun t => nth d t 0 * (prior t * likelihood p t row')) (fun t => c * (nth d t 0 * (prior t * likelihood p t row)))) by (intros t Ht; rewrite (E t Ht); ring).
  rewrite (map_ext_in (fun t => prior t * likelihood p t row') (fun t => c * (prior t * likelihood p t row))) by (intros t Ht; rewrite (E t Ht); ring).
  rewrite !S. pose proof (rsum_map_pos (fun t => prior t * likelihood p t row) grid Hne Hp). field. lra.
Qed.
(** An increasing ratio: a larger mean. *)
Lemma mean_tilted m p grid prior row row' : em_lv m = 1%nat -> grid <> [] -> Forall (fun t => length t = em_lv m) grid -> (forall t, 0 < prior t) ->
  (forall x, 0 < likelihood p [x] row) -> (forall x, 0 < likelihood p [x] row') ->
  (forall x y, x < y -> likelihood p [x] row' * likelihood p [y] row < likelihood p [x] row * likelihood p [y] row') ->
  (exists t t', In t grid /\ In t' grid /\ nth 0 t 0 < nth 0 t' 0) -> posterior_mean p grid prior row 0 < posterior_mean p grid prior row' 0.
Proof.
  intros E1 Hne HF Hp H1 H2 HR HS. rewrite Forall_forall in HF.
  apply (tilt_up grid (fun t => nth 0 t 0) (fun t => prior t * likelihood p t row) (fun x => likelihood p [x] row' / likelihood p [x] row) (fun t => prior t * likelihood p t row')); auto.
  - intros t Ht. rewrite (one_point _ t E1 (HF t Ht)). apply Rmult_lt_0_compat; auto.
  - intro x. now apply Rdiv_lt_0_compat.
  - intros t Ht. pose proof (H1 (nth 0 t 0)) as Q. pose proof (one_point _ t E1 (HF t Ht)) as E. rewrite <- E in *. field. lra.
  - intros x y Hxy. specialize (HR x y Hxy). pose proof (H1 x). pose proof (H1 y). apply (Rmult_lt_reg_r (likelihood p [x] row * likelihood p [y] row)); [now apply Rmult_lt_0_compat|].
    replace (likelihood p [x] row' / likelihood p [x] row * (likelihood p [x] row * likelihood p [y] row)) with (likelihood p [x] row' * likelihood p [y] row) by (field; lra).
    replace (likelihood p [y] row' / likelihood p [y] row * (likelihood p [x] row * likelihood p [y] row)) with (likelihood p [x] row * likelihood p [y] row') by (field; lra). exact HR.
Qed.
