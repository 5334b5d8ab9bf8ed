(** Property C106: what the scores depend on, and their order. *)
From Verif Require T_Est.
From Verif Require Import Base BaseFacts RBase RFacts M_Data M_CV M_Logit M_Lik M_Est P_CV P_Logit P_Est1 P_Est2 P_Est3 P_Max1 P_Suff1 P_Suff2 P_Suff3 S_Logit S_Lik S_Est S_Opt S_Suff.
Import List.
Local Open Scope R_scope.

(** Rows that answer the same items and have the same weighted sum scores get the same EAP scores. *)
Theorem C106_sufficient : forall mvn m p w a points data out n n' row row',
  weights_of m p w -> legal_data (em_cats m) data -> (0 < eap_points m points)%nat ->
  eap_theta_scores mvn m a points (Wide (em_items m) data) = Ok out ->
  nth_error data n = Some row -> nth_error data n' = Some row' -> same_items row row' ->
  (forall d, (d < em_lv m)%nat -> total w row d = total w row' d) ->
  exists s, nth_error out n = Some s /\ nth_error out n' = Some s.
Proof.
  intros mvn m p w a points data out n n' row row' Hw Hd Hg E Hn Hn' HS HT.
  pose proof (weights_library m p w Hw) as Hm. assert (Hne : data <> []) by (intros ->; destruct n; discriminate).
  destruct (eap_rows mvn m p a points data out Hm Hd Hne Hg E) as (grid & prior & Hgne & HF & Hp & -> & _).
  exists (score_row p (em_lv m) grid prior row). rewrite !nth_error_map, Hn, Hn'. split; [reflexivity|]. cbn [option_map]. f_equal. unfold score_row. apply map_ext. intro d. f_equal. f_equal.
  unfold legal_data in Hd. rewrite Forall_forall in Hd, HF. pose proof (Hd row (nth_error_In _ _ Hn)) as L. pose proof (Hd row' (nth_error_In _ _ Hn')) as L'.
  destruct (weights_ratio m p w row row' Hw L L' HS) as (c & Hc & HR). apply (mean_scaled p grid prior row row' d c Hgne); [|exact Hc|].
  - intros t Ht. apply Rmult_lt_0_compat; [apply Hp|apply (library_likelihood m p); auto].
  - intros t Ht. rewrite (HR t (HF t Ht)). rewrite (sumn_ext _ _ (fun _ => 0)) by (intros e He; rewrite (HT e He); ring). rewrite sumn_0, exp_0. ring.
Qed.
Print Assumptions C106_sufficient.

Lemma ordered_rows mvn m p a points data out n n' row row' : library_model m p -> em_lv m = 1%nat ->
  legal_data (em_cats m) data -> grid_spread m a points -> eap_theta_scores mvn m a points (Wide (em_items m) data) = Ok out ->
  nth_error data n = Some row -> nth_error data n' = Some row' ->
  (forall x y, x < y -> likelihood p [x] row' * likelihood p [y] row < likelihood p [x] row * likelihood p [y] row') ->
  exists y y', nth_error out n = Some [Some (Fin y)] /\ nth_error out n' = Some [Some (Fin y')] /\ y < y'.
Proof.
  intros Hm E1 Hd HG E Hn Hn' HR. assert (Hne : data <> []) by (intros ->; destruct n; discriminate).
  destruct (eap_rows mvn m p a points data out Hm Hd Hne ltac:(destruct HG; lia) E) as (grid & prior & Hgne & HF & Hp & -> & HSp).
  exists (posterior_mean p grid prior row 0), (posterior_mean p grid prior row' 0). rewrite !nth_error_map, Hn, Hn'. cbn [option_map]. unfold score_row. rewrite E1. cbn [seq map]. split; [reflexivity|]. split; [reflexivity|].
  unfold legal_data in Hd. rewrite Forall_forall in Hd. pose proof (Hd row (nth_error_In _ _ Hn)) as L. pose proof (Hd row' (nth_error_In _ _ Hn')) as L'.
  apply (mean_tilted m p grid prior row row' E1 Hgne HF Hp); [intro x; apply (library_likelihood m p); auto|intro x; apply (library_likelihood m p); auto|exact HR|now apply HSp].
Qed.

Lemma weights_order m p w row row' : weights_of m p w -> em_lv m = 1%nat -> legal_row (em_cats m) row -> legal_row (em_cats m) row' -> same_items row row' ->
  total w row 0 < total w row' 0 -> forall x y, x < y -> likelihood p [x] row' * likelihood p [y] row < likelihood p [x] row * likelihood p [y] row'.
Proof.
  intros Hw E1 L L' HS HT x y Hxy. destruct (weights_ratio m p w row row' Hw L L' HS) as (c & Hc & HR).
  rewrite (HR [x]), (HR [y]) by (rewrite E1; reflexivity). rewrite E1. cbn [sumn nth]. rewrite !Rplus_0_l.
  pose proof (weights_library m p w Hw) as Hm. assert (PX : 0 < likelihood p [x] row) by (apply (library_likelihood m p); auto). assert (PY : 0 < likelihood p [y] row) by (apply (library_likelihood m p); auto).
  set (D := total w row' 0 - total w row 0). assert (0 < D) by (unfold D; lra).
  replace (c * exp (D * x) * likelihood p [x] row * likelihood p [y] row) with (exp (D * x) * (c * (likelihood p [x] row * likelihood p [y] row))) by ring.
  replace (likelihood p [x] row * (c * exp (D * y) * likelihood p [y] row)) with (exp (D * y) * (c * (likelihood p [x] row * likelihood p [y] row))) by ring.
  apply Rmult_lt_compat_r; [repeat apply Rmult_lt_0_compat; assumption|]. apply exp_increasing. nra.
Qed.
Lemma upward_order m p row row' : upward m p -> legal_row (em_cats m) row -> legal_row (em_cats m) row' -> all_no_worse (em_cats m) row row' ->
  some_different (em_cats m) row row' -> forall x y, x < y -> likelihood p [x] row' * likelihood p [y] row < likelihood p [x] row * likelihood p [y] row'.
Proof.
  intros Hu L L' HN HD x y Hxy. destruct (ratio_monotone x y Hxy (em_cats m) p row row') as (_ & _ & _ & _ & _ & H); [|apply L|apply L'|intros i k; now apply legal_at|exact HN|now apply H].
  intros i Hi. now apply upward_ordered.
Qed.

(** With one latent variable, a larger weighted sum score on the same items means a larger EAP score. *)
Theorem C106_order : forall mvn m p w a points data out n n' row row',
  weights_of m p w -> em_lv m = 1%nat -> legal_data (em_cats m) data -> grid_spread m a points ->
  eap_theta_scores mvn m a points (Wide (em_items m) data) = Ok out ->
  nth_error data n = Some row -> nth_error data n' = Some row' -> same_items row row' ->
  total w row 0 < total w row' 0 ->
  exists y y', nth_error out n = Some [Some (Fin y)] /\ nth_error out n' = Some [Some (Fin y')] /\ y < y'.
Proof.
  intros mvn m p w a points data out n n' row row' Hw E1 Hd HG E Hn Hn' HS HT. assert (D := Hd). unfold legal_data in D. rewrite Forall_forall in D.
  apply (ordered_rows mvn m p a points data out n n' row row'); auto; [now apply (weights_library m p w)|]. apply (weights_order m p w); auto; apply D; eapply nth_error_In; eauto.
Qed.
Print Assumptions C106_order.

(** With one latent variable and positive slopes, in every model but the nominal one and also with guessing: better
    answers mean a larger EAP score.  An item left out counts as worse than its highest category and better than its
    lowest one. *)
Theorem C106_better : forall mvn m p a points data out n n' row row',
  upward m p -> legal_data (em_cats m) data -> grid_spread m a points ->
  eap_theta_scores mvn m a points (Wide (em_items m) data) = Ok out ->
  nth_error data n = Some row -> nth_error data n' = Some row' ->
  all_no_worse (em_cats m) row row' -> some_different (em_cats m) row row' ->
  exists y y', nth_error out n = Some [Some (Fin y)] /\ nth_error out n' = Some [Some (Fin y')] /\ y < y'.
Proof.
  intros mvn m p a points data out n n' row row' Hu Hd HG E Hn Hn' HN HD. assert (D := Hd). unfold legal_data in D. rewrite Forall_forall in D. destruct (upward_library m p Hu) as [Hm E1].
  apply (ordered_rows mvn m p a points data out n n' row row'); auto. apply (upward_order m p); auto; apply D; eapply nth_error_In; eauto.
Qed.
Print Assumptions C106_better.

(** ML and MAP scores ([prior] constant or a density): the same rows share them. *)
Theorem C106_sufficient_max : forall m p w (prior : list R -> R) row row' t,
  weights_of m p w -> legal_row (em_cats m) row -> legal_row (em_cats m) row' -> same_items row row' ->
  (forall d, (d < em_lv m)%nat -> total w row d = total w row' d) -> length t = em_lv m ->
  (maximum (em_lv m) (fun t => prior t * likelihood p t row) t <-> maximum (em_lv m) (fun t => prior t * likelihood p t row') t).
Proof.
  intros m p w prior row row' t Hw L L' HS HT Lt. destruct (weights_ratio m p w row row' Hw L L' HS) as (c & Hc & HR).
  assert (E : forall u, length u = em_lv m -> prior u * likelihood p u row' = c * (prior u * likelihood p u row)).
  { intros u Lu. rewrite (HR u Lu). rewrite (sumn_ext _ _ (fun _ => 0)) by (intros e He; rewrite (HT e He); ring). rewrite sumn_0, exp_0. ring. }
  split; intros H u Lu; specialize (H u Lu); cbv beta in H |- *.
  - rewrite (E u Lu), (E t Lt). apply Rmult_le_compat_l; lra.
  - rewrite (E u Lu), (E t Lt) in H. apply (Rmult_le_reg_l c); lra.
Qed.
Print Assumptions C106_sufficient_max.
(** And better answers never lower them. *)
Lemma max_order (f g : R -> R) (P : R -> R) x x' : (forall z, 0 < P z) -> (forall z, 0 < f z) -> (forall z, 0 < g z) ->
  (forall u v, u < v -> g u * f v < f u * g v) -> (forall z, P z * f z <= P x * f x) -> (forall z, P z * g z <= P x' * g x') -> x <= x'.
Proof.
  intros HP Hf Hg HR H1 H2. destruct (Rle_lt_dec x x') as [|Hlt]; [assumption|]. exfalso. specialize (HR x' x Hlt). specialize (H1 x'). specialize (H2 x). pose proof (HP x). pose proof (HP x'). pose proof (Hf x). pose proof (Hf x'). pose proof (Hg x). pose proof (Hg x').
  assert (A : (P x' * f x') * (P x * g x) <= (P x * f x) * (P x' * g x')) by (apply Rmult_le_compat; try lra; left; now apply Rmult_lt_0_compat).
  assert (B : 0 < P x * P x') by now apply Rmult_lt_0_compat.
  assert (C : (P x * P x') * (g x' * f x) < (P x * P x') * (f x' * g x)) by now apply Rmult_lt_compat_l. nra.
Qed.
Theorem C106_better_max : forall m p (prior : list R -> R) row row' x x',
  (forall z, 0 < prior [z]) -> legal_row (em_cats m) row -> legal_row (em_cats m) row' ->
  upward m p /\ all_no_worse (em_cats m) row row' /\ some_different (em_cats m) row row' \/
  em_lv m = 1%nat /\ (exists w, weights_of m p w /\ same_items row row' /\ total w row 0 < total w row' 0) ->
  maximum 1 (fun t => prior t * likelihood p t row) [x] -> maximum 1 (fun t => prior t * likelihood p t row') [x'] -> x <= x'.
Proof.
  intros m p prior row row' x x' HP L L' HU H1 H2.
  assert (library_model m p /\ em_lv m = 1%nat /\ forall u v, u < v -> likelihood p [u] row' * likelihood p [v] row < likelihood p [u] row * likelihood p [v] row') as (Hm & E1 & HR).
  { destruct HU as [(Hu & HN & HD)|(E1 & w & Hw & HS & HT)].
    - destruct (upward_library m p Hu). repeat split; auto. now apply (upward_order m p).
    - split; [now apply (weights_library m p w)|]. split; [exact E1|]. now apply (weights_order m p w). }
  apply (max_order (fun z => likelihood p [z] row) (fun z => likelihood p [z] row') (fun z => prior [z]) x x'); auto; try (intro z; apply (library_likelihood m p); auto).
Qed.
Print Assumptions C106_better_max.

(** With two latent variables a better answer can lower a score.  An unfitted 2PL model whose first item measures both
    latent variables and whose second item measures the second one only: getting the second item right as well lowers
    the score on the first latent variable. *)
Definition par_model : tpl := {| tpl_lv := 2; tpl_free := [[true; true]; [false; true]]; tpl_w := [1; 1; 1]; tpl_b := [0; 0] |}.
Definition par_data : list (list cell) := [[Some 1; Some 0]; [Some 1; Some 1]]%Z.
Lemma par_wf : tpl_wf par_model.
Proof. repeat split; cbn; try lia. repeat constructor. Qed.
Lemma par_legal : legal_data (em_cats (of_sub (tpl_sub 0 par_model))) par_data.
Proof.
  unfold legal_data, par_data. apply Forall_forall. intros row [<- |[<- |[]]]; (split; [reflexivity|]); intros [|[|i]] c H; cbn in H;
    try (destruct i; discriminate); injection H as <-; right; right;
    first [exists 1%nat; cbn; split; [reflexivity|lia] | exists 0%nat; cbn; split; [reflexivity|lia]].
Qed.
Lemma par_likelihood x y k : likelihood (tpl_p par_model) [x; y] [Some 1; Some (Z.of_nat k)]%Z = logistic (x + y) * (if (k =? 1)%nat then logistic y else 1 - logistic y).
Proof.
  unfold likelihood. cbn [mapi mapi_from rprod]. unfold answer. change (1 =? -1)%Z with false. destruct (Z.eqb_spec (Z.of_nat k) (-1)); [lia|]. rewrite Nat2Z.id. change (Z.to_nat 1) with 1%nat. cbv iota.
  unfold tpl_p. cbv zeta. cbn [Nat.eqb]. unfold predictor, slope. cbn [par_model tpl_lv tpl_free tpl_w tpl_b nth sumn concat firstn app ctrue]. cbn [ctrue filter length Nat.add nth]. rewrite Rmult_1_r. f_equal; [f_equal; ring|]. destruct (k =? 1)%nat; [f_equal; ring|f_equal; f_equal; ring].
Qed.
Theorem C106_paradox : forall mvn logpdf,
  mvn (map (map Some) (identity 2)) = Ok logpdf ->
  (forall t t', length t = 2%nat -> length t' = 2%nat -> (forall d, (nth d t 0) ^ 2 = (nth d t' 0) ^ 2) -> logpdf t = logpdf t') ->
  exists y z y' z',
    eap_theta_scores mvn (of_sub (tpl_sub 0 par_model)) no_algorithm (Some 2%nat) (Wide 2 [[Some 1; Some 0]; [Some 1; Some 1]]%Z)
      = Ok [[Some (Fin y); Some (Fin z)]; [Some (Fin y'); Some (Fin z')]] /\ y' < y.
Proof.
  intros mvn logpdf Hm HL.
  destruct (T_Est.unfitted_grid mvn (of_sub (tpl_sub 0 par_model)) (tpl_p par_model) logpdf (Some 2%nat) par_data (lib_tpl 0 par_model par_wf ltac:(cbn; lia)) (le_S _ _ (le_S _ _ (le_n 2))) Hm (le_S _ _ (le_n 1)) ltac:(discriminate) par_legal) as (grid & Eg & E).
  change (em_lv (of_sub (tpl_sub 0 par_model))) with 2%nat in *. change (em_items (of_sub (tpl_sub 0 par_model))) with 2%nat in *. cbn [par_data map seq] in E. do 4 eexists. split; [exact E|]. clear E.
  assert (EL : linspace (-3) 3 2 = [-3; 3]) by (unfold linspace; cbn [seq map]; repeat f_equal; cbn [INR Nat.sub]; field).
  rewrite EL in Eg. cbn [repeat product flat_map map app] in Eg. subst grid. unfold posterior_mean. cbn [map rsum nth].
  rewrite (HL [-3; 3] [3; 3]), (HL [3; -3] [3; 3]), (HL [-3; -3] [3; 3]) by (try reflexivity; intros [|[|[|d]]]; cbn [nth]; ring).
  set (e := exp (logpdf [3; 3])). assert (0 < e) as He by apply exp_pos.
  change [Some 1; Some 0]%Z with [Some 1; Some (Z.of_nat 0)]%Z. change [Some 1; Some 1]%Z with [Some 1; Some (Z.of_nat 1)]%Z. rewrite !par_likelihood. cbn [Nat.eqb].
  replace (-3 + 3) with 0 by ring. replace (3 + -3) with 0 by ring. replace (-3 + -3) with (- (3 + 3)) by ring. replace (logistic (- (3 + 3))) with (1 - logistic (3 + 3)) by apply P_Opt2.logistic_opp. replace (logistic (-3)) with (1 - logistic 3) by (rewrite P_Opt2.logistic_opp; f_equal; ring).
  assert (H0 : logistic 0 = 1 / 2) by (unfold logistic; rewrite Ropp_0, exp_0; field). rewrite H0.
  pose proof (logistic_incr 0 3 ltac:(lra)) as I1. pose proof (logistic_incr 0 (3 + 3) ltac:(lra)) as I2. rewrite H0 in I1, I2. pose proof (logistic_bounds 3). pose proof (logistic_bounds (3 + 3)).
  set (s := logistic 3) in *. set (u := logistic (3 + 3)) in *.
  assert (0 < (u + 1 / 2) * s) by (apply Rmult_lt_0_compat; lra). assert (0 < (3 / 2 - u) * (1 - s)) by (apply Rmult_lt_0_compat; lra). assert (0 < (u + 1 / 2) * (1 - s)) by (apply Rmult_lt_0_compat; lra). assert (0 < (3 / 2 - u) * s) by (apply Rmult_lt_0_compat; lra).
  match goal with |- ?a / ?b < ?c / ?d => replace (a / b) with (3 * (u - 1 / 2) / ((u + 1 / 2) * s + (3 / 2 - u) * (1 - s))); [replace (c / d) with (3 * (u - 1 / 2) / ((u + 1 / 2) * (1 - s) + (3 / 2 - u) * s))|] end.
  - apply Rmult_lt_compat_l; [lra|]. apply Rinv_lt_contravar; [apply Rmult_lt_0_compat; lra|]. assert (0 < (2 * u - 1) * (2 * s - 1)) by (apply Rmult_lt_0_compat; lra). nra.
  - field. split; [|lra]. intro Q. ring_simplify in Q. nra.
  - field. split; [|lra]. intro Q. ring_simplify in Q. nra.
Qed.
Print Assumptions C106_paradox.
(** Two items: right on the first only, right on the second only, both right, first left out and second right. *)
Definition suf_data : list (list cell) := [[Some 1; Some 0]; [Some 0; Some 1]; [Some 1; Some 1]; [None; Some 1]]%Z.
Lemma suf_legal : legal_data (em_cats T_Est.ex_model) suf_data.
Proof.
  unfold legal_data, suf_data. apply Forall_forall. intros row [<- |[<- |[<- |[<- |[]]]]]; (split; [reflexivity|]); intros [|[|i]] c H; cbn in H;
    try (destruct i; discriminate); injection H as <-; auto; right; right;
    first [exists 1%nat; cbn; split; [reflexivity|lia] | exists 0%nat; cbn; split; [reflexivity|lia]].
Qed.
Example C106_nonvacuous : exists out y0 y2 y3,
  eap_theta_scores T_Est.ex_mvn T_Est.ex_model no_algorithm None (Wide 2 suf_data) = Ok out /\
  nth_error out 0 = Some [Some (Fin y0)] /\ nth_error out 1 = Some [Some (Fin y0)] /\ nth_error out 2 = Some [Some (Fin y2)] /\
  nth_error out 3 = Some [Some (Fin y3)] /\ y0 < y3 < y2.
Proof.
  destruct (T_Est.unfitted_grid T_Est.ex_mvn T_Est.ex_model (opl_p T_Est.ex_opl) _ None suf_data T_Est.ex_library ltac:(cbn; lia) eq_refl ltac:(cbn; lia) ltac:(discriminate) suf_legal) as (grid & _ & E).
  change (em_items T_Est.ex_model) with 2%nat in E. eexists. 
  assert (W : weights_of T_Est.ex_model (opl_p T_Est.ex_opl) (fun i k d => INR k)) by (apply weights_opl; cbn; lia).
  assert (U : upward T_Est.ex_model (opl_p T_Est.ex_opl)) by (apply upward_opl; cbn; lia).
  assert (SP : grid_spread T_Est.ex_model no_algorithm None) by (split; [unfold eap_points; cbn; lia|exact I]).
  assert (A2 : forall (row row' : list cell), no_worse 2 (answer (nth 0 row None)) (answer (nth 0 row' None)) -> no_worse 2 (answer (nth 1 row None)) (answer (nth 1 row' None)) -> all_no_worse (em_cats T_Est.ex_model) row row').
  { intros row row' H0 H1 [|[|i]] Hi; [exact H0|exact H1|cbn in Hi; lia]. }
  destruct (C106_sufficient T_Est.ex_mvn T_Est.ex_model _ _ no_algorithm None suf_data _ 0%nat 1%nat _ _ W suf_legal ltac:(unfold eap_points; cbn; lia) E eq_refl eq_refl) as (s & S0 & S1).
  { intros [|[|[|i]]]; cbn; split; congruence. }
  { intros d _. unfold total. cbn [mapi mapi_from rsum]. unfold answer. change (1 =? -1)%Z with false. change (0 =? -1)%Z with false. cbv iota. change (Z.to_nat 1) with 1%nat. change (Z.to_nat 0) with 0%nat. cbn [INR]. ring. }
  destruct (C106_better T_Est.ex_mvn T_Est.ex_model _ no_algorithm None suf_data _ 1%nat 3%nat _ _ U suf_legal SP E eq_refl eq_refl) as (y1 & y3 & E1 & E3 & L13).
  { apply A2; [apply nw_bottom|apply nw_same]. } { exists 0%nat. cbn. repeat split; [lia|lia|discriminate]. }
  destruct (C106_better T_Est.ex_mvn T_Est.ex_model _ no_algorithm None suf_data _ 3%nat 2%nat _ _ U suf_legal SP E eq_refl eq_refl) as (y3' & y2 & E3' & E2 & L32).
  { apply A2; [apply (nw_top 2)|apply nw_same]. } { exists 0%nat. cbn. repeat split; [lia|lia|discriminate]. }
  exists y1, y2, y3. split; [exact E|]. rewrite E3 in E3'. injection E3' as <-. rewrite S0. rewrite S1 in E1. repeat split; [exact E1|rewrite S1; exact E1|exact E2|exact E3|exact L13|exact L32].
Qed.
(** The hypotheses of the statements about maxima: a graded item, the middle category against the highest one. *)
Example C106_max_nonvacuous : forall m, poly_wf m -> (0 < p_items m)%nat -> p_lv m = 1%nat -> decreasing_intercepts m ->
  (forall i, (i < p_items m)%nat -> 0 < slope (p_free m) (p_w m) i 0) -> p_cats m = [3%nat] ->
  upward (of_sub (grm_sub 0 m)) (grm_p m) /\ all_no_worse [3%nat] [Some 1%Z] [Some 2%Z] /\ some_different [3%nat] [Some 1%Z] [Some 2%Z].
Proof.
  intros m H1 H2 H3 H4 H5 H6. split; [now apply upward_grm|]. split.
  - intros [|i] Hi; [apply nw_higher; cbn; lia|cbn in Hi; lia].
  - exists 0%nat. cbn. repeat split; [lia|lia|discriminate].
Qed.
Example C106_graded_model : let m := {| p_lv := 1; p_free := [[true]]; p_cats := [3%nat]; p_w := [2]; p_b := [1; -1] |} in
  poly_wf m /\ p_lv m = 1%nat /\ decreasing_intercepts m /\ forall i, (i < p_items m)%nat -> 0 < slope (p_free m) (p_w m) i 0.
Proof.
  cbv zeta. split; [repeat split; cbn; try lia; repeat constructor|]. split; [reflexivity|]. split.
  - intros [|i] K j HK H1 H2; [|destruct i; discriminate]. cbn in HK. injection HK as <-. replace j with 1%nat by lia. unfold intercept. cbn [p_cats p_b nth Nat.leb Nat.ltb andb firstn map list_sum fold_right Nat.add Nat.sub]. cbn. lra.
  - intros [|i] Hi; [unfold slope; cbn; lra|cbn in Hi; lia].
Qed.
