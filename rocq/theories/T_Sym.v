(** Property theorems C110: what estimation does not depend on. *)
From Verif Require T_Est.
From Verif Require Import Base BaseFacts RBase RFacts M_Data M_CV M_Logit M_Lik M_Est M_Opt M_Jml P_Data P_Logit P_Est1 P_Est2 P_Est3 P_Stat4 P_Sym1 P_Sym2 P_Sym3 P_Sym4 S_Logit S_Lik S_Est S_Sym.
Import List.
From Coq Require Import Permutation.
Local Open Scope R_scope.

(** A 2PL and a nominal model with two latent variables for the examples. *)
Definition two_items : irt := Tpl {| tpl_lv := 2; tpl_free := [[true; true]; [false; true]]; tpl_w := [1; -2; 3]; tpl_b := [1 / 2; 0] |}.
Lemma two_items_wf : well_formed two_items.
Proof. repeat split; try (cbn; lia). repeat constructor. Qed.
Lemma two_items_units s : (forall d, nth d s 1 <> 0) -> units s two_items.
Proof. intro H. split; [exact H|exact I]. Qed.
Definition three_rows : list (list cell) := [[Some 1; None]; [Some 0; Some 1]; [Some (-1); Some 0]]%Z.
Lemma three_rows_legal : legal_data [2; 2]%nat three_rows.
Proof.
  unfold legal_data, three_rows. apply Forall_forall. intros row [<- |[<- |[<- |[]]]]; (split; [reflexivity|]); intros [|[|i]] c H; cbn in H;
    try (destruct i; discriminate); injection H as <-; auto; right; right;
    first [exists 1%nat; cbn; split; [reflexivity|lia] | exists 0%nat; cbn; split; [reflexivity|lia]].
Qed.

(** ** The order of the respondents *)
(** The marginal loss does not depend on it; the joint loss depends only on which scores go with which answers; EAP scores are
    returned in the order of the data (or the same exception is raised). *)
Theorem C110_respondents : forall m p,
  library_model m p ->
  (forall points weights data data', points <> [] -> length weights = length points -> Forall (fun t => length t = em_lv m) points -> Forall (fun w => 0 < w) weights ->
     legal_data (em_cats m) data -> Permutation data data' ->
     exists v, mml_loss m points (map (fun w => Some (Fin (ln w))) weights) (Wide (em_items m) data) = Ok (Some (Fin v)) /\
       mml_loss m points (map (fun w => Some (Fin (ln w))) weights) (Wide (em_items m) data') = Ok (Some (Fin v))) /\
  (forall data data' thetas thetas', legal_data (em_cats m) data -> length thetas = length data -> length thetas' = length data' -> Forall (fun t => length t = em_lv m) thetas ->
     Permutation (combine data thetas) (combine data' thetas') ->
     exists v, jml_loss m (Wide (em_items m) data) thetas = Ok (Some (Fin v)) /\ jml_loss m (Wide (em_items m) data') thetas' = Ok (Some (Fin v))) /\
  (forall mvn a points data order, (0 < match points with Some g => g | None => eap_default_points (em_lv m) end)%nat ->
     data <> [] -> legal_data (em_cats m) data -> Permutation order (seq 0 (length data)) ->
     eap_theta_scores mvn m a points (Wide (em_items m) (map (fun n => nth n data []) order)) =
       rmap (fun out => map (fun n => nth n out []) order) (eap_theta_scores mvn m a points (Wide (em_items m) data))).
Proof.
  intros m p Hm. split; [|split].
  - intros points weights data data' H1 H2 H3 H4 HD HP. eexists. split; [now apply (mml_library m p)|]. rewrite (mml_library m p) by (auto; unfold legal_data in *; now apply (Permutation_Forall HP)). do 4 f_equal. apply rsum_permutation, Permutation_map, Permutation_sym, HP.
  - intros data data' thetas thetas' HD H1 H2 HF HP. eexists. split; [now apply (jml_library m p)|].
    assert (HA : Forall (fun rt : list cell * list R => legal_row (em_cats m) (fst rt) /\ length (snd rt) = em_lv m) (combine data' thetas')).
    { apply (Permutation_Forall HP). apply Forall_forall. intros [r t] Hrt. unfold legal_data in HD. rewrite Forall_forall in HD, HF. split; [apply HD|apply HF]; [now apply in_combine_l in Hrt|now apply in_combine_r in Hrt]. }
    assert (HD' : legal_data (em_cats m) data' /\ Forall (fun t => length t = em_lv m) thetas').
    { clear - H2 HA. revert thetas' H2 HA. induction data' as [|r data' IH]; intros [|t thetas'] H2 HA; try discriminate; [split; constructor|]. cbn [combine] in HA. inversion HA as [|? ? [Q1 Q2] HA']. destruct (IH thetas' ltac:(cbn in H2; lia) HA'). split; constructor; auto. }
    rewrite (jml_library m p) by tauto. do 4 f_equal. apply rsum_permutation, Permutation_map, Permutation_sym, HP.
  - intros mvn a points data order Hg Hne HD HP. destruct (eap_prefix (em_lv m) mvn a points Hg) as [(e & HE)|(grid & lp & HG & HF & HE)]; [now rewrite !HE|]. rewrite !HE by reflexivity.
    change (map (fun n => nth n data []) order) with (pick order data []). destruct (order_below _ _ HP) as (L & B & _).
    assert (Q : forall data, data <> [] -> legal_data (em_cats m) data -> eap_scores m grid (map (fun t => Some (Fin (lp t))) grid) (Wide (em_items m) data) =
        Ok (map (fun row => map (fun d => Some (Fin (posterior_mean p grid (fun t => exp (lp t)) row d))) (seq 0 (em_lv m))) data)).
    { intros da Hn Hl. apply eap_posterior_mean; auto; [now apply library_has_probabilities|now apply flat_rowwise, (library_flat m p)|now apply (library_items m p)|].
      apply Forall_forall. intros row Hrow. apply Exists_exists. destruct grid as [|t ts]; [cbn in HG; lia|]. exists t. split; [now left|]. apply (library_likelihood m p); auto. unfold legal_data in Hl. rewrite Forall_forall in Hl. auto. }
    rewrite (Q data Hne HD), Q.
    + cbn [rmap]. unfold rmap, bind. f_equal. rewrite map_pick. apply pick_default. now rewrite map_length.
    + intro E. apply (f_equal (@length _)) in E. rewrite pick_length, L in E. destruct data; [congruence|discriminate].
    + apply pick_Forall; [exact B|exact HD].
Qed.
Print Assumptions C110_respondents.
Example C110_respondents_nonvacuous : library_model (model_of 0 two_items) (chances two_items) /\ legal_data (em_cats (model_of 0 two_items)) three_rows /\
  Permutation three_rows (rev three_rows) /\ Permutation [2; 0; 1]%nat (seq 0 (length three_rows)) /\ Forall (fun t => length t = em_lv (model_of 0 two_items)) [[0; 1]; [1; -1]].
Proof.
  split; [apply model_library, two_items_wf|]. split; [exact three_rows_legal|]. split; [apply Permutation_rev|]. split; [|repeat constructor].
  cbn. apply perm_trans with [0; 2; 1]%nat; [apply perm_swap|apply perm_skip, perm_swap].
Qed.

(** ** The order of the items *)
(** Data with the columns in another order and the model with the items in that order: the same losses, EAP scores and
    exceptions. *)
Theorem C110_items : forall nanl x order, well_formed x -> let m := model_of nanl x in let m' := model_of nanl (reorder order x) in let I := em_items m in
  Permutation order (seq 0 I) ->
  library_model m' (chances (reorder order x)) /\ em_items m' = I /\ em_lv m' = em_lv m /\
  (forall t i k, (i < I)%nat -> (k < nth i (em_cats m') O)%nat -> chances (reorder order x) t i k = chances x t (nth i order O) k) /\
  forall data, legal_data (em_cats m) data -> let data' := map (fun row => map (fun i => nth i row None) order) data in
  legal_data (em_cats m') data' /\
  (forall points weights, points <> [] -> length weights = length points -> Forall (fun t => length t = em_lv m) points -> Forall (fun w => 0 < w) weights ->
     mml_loss m' points (map (fun w => Some (Fin (ln w))) weights) (Wide I data') = mml_loss m points (map (fun w => Some (Fin (ln w))) weights) (Wide I data)) /\
  (forall thetas, length thetas = length data -> Forall (fun t => length t = em_lv m) thetas -> jml_loss m' (Wide I data') thetas = jml_loss m (Wide I data) thetas) /\
  (forall mvn a points, (0 < match points with Some g => g | None => eap_default_points (em_lv m) end)%nat -> data <> [] ->
     eap_theta_scores mvn m' a points (Wide I data') = eap_theta_scores mvn m a points (Wide I data)).
Proof.
  intros nanl x order H m m' I HP. assert (EC : em_cats m = cats_of x) by apply model_cats. assert (HI : I = length (cats_of x)) by (unfold I, em_items; now rewrite EC). rewrite HI in HP.
  assert (H' : well_formed (reorder order x)) by (now apply reordered_well_formed). assert (EC' : em_cats m' = pick order (cats_of x) O) by (unfold m'; rewrite model_cats; now apply reordered_cats).
  destruct (order_below _ _ HP) as (L & B & Bn).
  assert (HM : library_model m (chances x)) by (now apply model_library). assert (HM' : library_model m' (chances (reorder order x))) by (now apply model_library).
  assert (EI : em_items m' = I) by (unfold em_items; rewrite EC', pick_length; lia). assert (EL : em_lv m' = em_lv m) by (unfold m, m'; rewrite !model_lv; destruct x; reflexivity).
  split; [exact HM'|]. split; [exact EI|]. split; [exact EL|]. split; [intros t i k Hi Hk; rewrite EC', pick_nth in Hk by lia; apply reordered_chances; auto; lia|].
  intros data HD data'. rewrite EC in HD. assert (HD' : legal_data (em_cats m') data') by (rewrite EC'; now apply reordered_legal_data).
  assert (HLk : forall t row, In row data -> likelihood (chances (reorder order x)) t (pick order row None) = likelihood (chances x) t row) by (intros t row Hr; apply reordered_likelihood; auto; unfold legal_data in HD; rewrite Forall_forall in HD; auto).
  split; [exact HD'|]. split; [|split].
  - intros points weights H1 H2 H3 H4. rewrite <- EI at 1. rewrite (mml_library m' (chances (reorder order x))) by (auto; now rewrite EL). unfold I. rewrite (mml_library m (chances x)) by (auto; now rewrite EC). do 4 f_equal. unfold data'. rewrite map_map.
    f_equal. apply map_ext_in. intros row Hr. f_equal. apply marginal_ext; [reflexivity|]. intros q Hq. now apply HLk.
  - intros thetas H1 H2. rewrite <- EI at 1. rewrite (jml_library m' (chances (reorder order x))) by (solve [assumption|now rewrite EL|unfold data'; now rewrite map_length]). unfold I. rewrite (jml_library m (chances x)) by (auto; now rewrite EC). do 4 f_equal.
    unfold data'. clear - HLk. f_equal. revert thetas; induction data as [|r data IH]; intros [|t thetas]; try reflexivity. cbn [map combine fst snd]. f_equal; [f_equal; apply HLk; now left|]. apply IH. intros. apply HLk. now right.
  - intros mvn a points Hg Hne. destruct (eap_prefix (em_lv m) mvn a points Hg) as [(e & HE)|(grid & lp & HG & HF & HE)]; [now rewrite !HE by auto|]. rewrite !HE by auto.
    assert (EX : forall (q : irt) (mq : emodel), well_formed q -> library_model mq (chances q) -> forall da, legal_data (em_cats mq) da -> Forall (fun row => Exists (fun t => 0 < likelihood (chances q) t row) grid) da).
    { intros q mq Hq Hmq da Hl. apply Forall_forall. intros row Hrow. apply Exists_exists. destruct grid as [|t ts]; [cbn in HG; lia|]. exists t. split; [now left|]. apply (library_likelihood mq (chances q)); auto. unfold legal_data in Hl. rewrite Forall_forall in Hl. auto. }
    rewrite <- EI at 1. rewrite (eap_posterior_mean m' (chances (reorder order x)) grid lp data'); auto; try now rewrite EL.
    + unfold I. rewrite (eap_posterior_mean m (chances x) grid lp data); auto.
      * f_equal. unfold data'. rewrite map_map, EL. apply map_ext_in. intros row Hr. apply map_ext. intro d. do 2 f_equal. unfold posterior_mean. f_equal; f_equal; apply map_ext; intro t; change (map (fun i => nth i row None) order) with (pick order row None); now rewrite HLk.
      * now apply library_has_probabilities.
      * now apply flat_rowwise, (library_flat m (chances x)).
      * now apply (library_items m (chances x)).
      * now rewrite EC.
      * apply (EX x m); auto. now rewrite EC.
    + now apply library_has_probabilities.
    + now apply flat_rowwise, (library_flat m' (chances (reorder order x))).
    + now apply (library_items m' (chances (reorder order x))).
    + unfold data'. destruct data; [congruence|discriminate].
    + apply (EX (reorder order x) m'); auto.
Qed.
Print Assumptions C110_items.
Example C110_items_nonvacuous : well_formed two_items /\ Permutation [1; 0]%nat (seq 0 (em_items (model_of 0 two_items))) /\ legal_data (em_cats (model_of 0 two_items)) three_rows /\
  reorder [1; 0]%nat two_items = Tpl {| tpl_lv := 2; tpl_free := [[false; true]; [true; true]]; tpl_w := [3; 1; -2]; tpl_b := [0; 1 / 2] |}.
Proof. split; [exact two_items_wf|]. split; [apply perm_swap|]. split; [exact three_rows_legal|]. reflexivity. Qed.

(** ** The scale of the latent variables in joint estimation *)
(** Scores moved by any amount and measured in any unit, in every latent variable, together with the item parameters for that
    scale: the same probabilities and the same joint loss.  So JML determines neither the origin nor the unit nor the sign
    (the 1PL model, whose slope is fixed, has its unit and sign determined). *)
Theorem C110_joint_scale : forall nanl x s c data thetas, well_formed x -> units s x -> let m := model_of nanl x in let m' := model_of nanl (rescale s c x) in
  legal_data (em_cats m) data -> length thetas = length data -> Forall (fun t => length t = em_lv m) thetas ->
  library_model m' (chances (rescale s c x)) /\ em_cats m' = em_cats m /\ em_lv m' = em_lv m /\
  (forall t i k, length t = em_lv m -> (i < em_items m)%nat -> (k < nth i (em_cats m) O)%nat -> chances (rescale s c x) (standard s c t) i k = chances x t i k) /\
  exists v, jml_loss m (Wide (em_items m) data) thetas = Ok (Some (Fin v)) /\ jml_loss m' (Wide (em_items m) data) (map (standard s c) thetas) = Ok (Some (Fin v)).
Proof.
  intros nanl x s c data thetas H HU m m' HD HL HF. assert (HM : library_model m (chances x)) by (now apply model_library). assert (HM' : library_model m' (chances (rescale s c x))) by (now apply model_library, rescaled_well_formed).
  assert (EC : em_cats m = cats_of x) by apply model_cats. assert (EC' : em_cats m' = em_cats m) by (unfold m, m'; rewrite !model_cats; apply rescaled_cats). assert (EL : em_lv m = latents x) by apply model_lv.
  assert (EL' : em_lv m' = em_lv m) by (unfold m, m'; rewrite !model_lv; apply rescaled_latents).
  split; [exact HM'|]. split; [exact EC'|]. split; [exact EL'|]. split; [intros t i k Ht Hi Hk; unfold em_items in Hi; rewrite EC in *; rewrite EL in Ht; now apply rescaled_chances|].
  eexists. split; [now apply (jml_library m (chances x))|]. replace (em_items m) with (em_items m') by (unfold em_items; now rewrite EC').
  rewrite (jml_library m' (chances (rescale s c x))).
  - do 5 f_equal. unfold legal_data in HD. rewrite EC in HD. rewrite EL in HF. clear - H HU HD HF. revert thetas HF; induction data as [|r data IH]; intros [|t thetas] HF; try reflexivity. cbn [map combine fst snd]. inversion HD. inversion HF. f_equal; [f_equal; now apply rescaled_likelihood|]. now apply IH.
  - exact HM'.
  - apply Forall_forall. intros t Ht. apply in_map_iff in Ht as (t0 & <- & Ht0). rewrite standard_length, EL'. rewrite Forall_forall in HF. auto.
  - now rewrite map_length.
  - now rewrite EC'.
Qed.
Print Assumptions C110_joint_scale.
Example C110_joint_scale_nonvacuous : well_formed two_items /\ units [2; -1] two_items /\ legal_data (em_cats (model_of 0 two_items)) three_rows /\ map (standard [2; -1] [1; 0]) [[3; 2]; [1; 1]] = [[1; -2]; [0; -1]] /\
  rescale [2; -1] [1; 0] two_items = Tpl {| tpl_lv := 2; tpl_free := [[true; true]; [false; true]]; tpl_w := [2 * 1; -1 * -2; -1 * 3]; tpl_b := [1 / 2 + (0 + 1 * 1 + -2 * 0); 0 + (0 + 0 * 1 + 3 * 0)] |}.
Proof.
  split; [exact two_items_wf|]. split; [apply two_items_units; intros [|[|[|d]]]; cbn; lra|]. split; [exact three_rows_legal|]. split; [|reflexivity].
  unfold standard. cbn [length seq map nth]. repeat f_equal; lra.
Qed.

(** ** The sign of the latent variables in marginal estimation *)
(** Any quadrature rule that is symmetric in some latent variables gives the model with the signs of their slopes changed the same
    marginal loss. *)
Theorem C110_sign_rule : forall nanl x s points weights data, well_formed x -> units s x -> let m := model_of nanl x in let m' := model_of nanl (rescale s [] x) in
  points <> [] -> length weights = length points -> Forall (fun t => length t = em_lv m) points -> Forall (fun w => 0 < w) weights -> legal_data (em_cats m) data ->
  Permutation (combine weights (map (standard s []) points)) (combine weights points) ->
  exists v, mml_loss m points (map (fun w => Some (Fin (ln w))) weights) (Wide (em_items m) data) = Ok (Some (Fin v)) /\
    mml_loss m' points (map (fun w => Some (Fin (ln w))) weights) (Wide (em_items m) data) = Ok (Some (Fin v)).
Proof.
  intros nanl x s points weights data H HU m m' H1 H2 H3 H4 HD HP. assert (HM : library_model m (chances x)) by (now apply model_library). assert (HM' : library_model m' (chances (rescale s [] x))) by (now apply model_library, rescaled_well_formed).
  assert (EC : em_cats m = cats_of x) by apply model_cats. assert (EC' : em_cats m' = em_cats m) by (unfold m, m'; rewrite !model_cats; apply rescaled_cats). assert (EL : em_lv m = latents x) by apply model_lv.
  assert (EL' : em_lv m' = em_lv m) by (unfold m, m'; rewrite !model_lv; apply rescaled_latents).
  eexists. split; [now apply (mml_library m (chances x))|]. replace (em_items m) with (em_items m') by (unfold em_items; now rewrite EC'). rewrite (mml_library m' (chances (rescale s [] x))) by (solve [assumption|now rewrite EL'|now rewrite EC']).
  do 5 f_equal. apply map_ext_in. intros row Hr. f_equal. apply marginal_sign; auto; [now rewrite EL in H3|]. unfold legal_data in HD. rewrite Forall_forall in HD. rewrite <- EC. auto.
Qed.
Print Assumptions C110_sign_rule.
(** The default rule of [MML.fit] with an even prior density is such a rule, whatever number of points is asked for (from two). *)
Theorem C110_sign_default : forall nanl x s n logpdf data, well_formed x -> units s x -> signs s -> (2 <= n)%nat -> let m := model_of nanl x in let m' := model_of nanl (rescale s [] x) in
  (forall t, length t = em_lv m -> logpdf (standard s [] t) = logpdf t) -> legal_data (em_cats m) data ->
  let rule := mml_quasi_mc n (em_lv m) logpdf in
  exists v, mml_loss m (fst rule) (snd rule) (Wide (em_items m) data) = Ok (Some (Fin v)) /\ mml_loss m' (fst rule) (snd rule) (Wide (em_items m) data) = Ok (Some (Fin v)).
Proof.
  intros nanl x s n logpdf data H HU HS Hn m m' HQ HD rule. unfold rule, mml_quasi_mc. cbn [fst snd]. set (grid := product (repeat (linspace (-3) 3 n) (em_lv m))).
  replace (map (fun t => Some (Fin (logpdf t))) grid) with (map (fun w => Some (Fin (ln w))) (map (fun t => exp (logpdf t)) grid)) by (rewrite map_map; apply map_ext; intro t; now rewrite ln_exp).
  assert (HF : Forall (fun t => length t = em_lv m) grid) by (apply Forall_forall; intros t Ht; apply in_product in Ht; apply Forall2_len in Ht; now rewrite repeat_length in Ht).
  apply C110_sign_rule; auto.
  - assert (HI : In (repeat (-3) (em_lv m)) grid).
    { apply in_product. clear - Hn. induction (em_lv m) as [|k IH]; cbn [repeat]; constructor; auto. apply linspace_first. lia. }
    intro E. rewrite E in HI. destruct HI.
  - apply map_length.
  - apply Forall_forall. intros w Hw. apply in_map_iff in Hw as (t & <- & _). apply exp_pos.
  - rewrite combine_map_r, combine_map_self, map_map. cbn [fst snd].
    apply Permutation_trans with (map (fun t => (exp (logpdf t), t)) (map (standard s []) grid)); [|apply Permutation_map; now apply grid_sign].
    rewrite map_map. erewrite map_ext_in; [apply Permutation_refl|]. intros t Ht. cbv beta. rewrite HQ; [reflexivity|]. rewrite Forall_forall in HF. auto.
Qed.
Print Assumptions C110_sign_default.
(** The prior [MML.fit] uses unless told otherwise, the standard normal, is even. *)
Theorem C110_normal_even : forall lv s t, signs s -> length t = lv -> diag_normal_pdf (repeat 0 lv) (repeat 1 lv) (standard s [] t) = diag_normal_pdf (repeat 0 lv) (repeat 1 lv) t.
Proof. exact density_sign. Qed.
Print Assumptions C110_normal_even.
(** EAP scores of the changed model on the symmetric grid: the same scores with the signs changed. *)
Theorem C110_sign_scores : forall mvn nanl x s logpdf points data, well_formed x -> units s x -> signs s -> let m := model_of nanl x in let m' := model_of nanl (rescale s [] x) in
  (em_lv m <= 4)%nat -> mvn (map (map Some) (identity (em_lv m))) = Ok logpdf -> (forall t, length t = em_lv m -> logpdf (standard s [] t) = logpdf t) ->
  (2 <= match points with Some g => g | None => eap_default_points (em_lv m) end)%nat -> data <> [] -> legal_data (em_cats m) data ->
  exists out, eap_theta_scores mvn m no_algorithm points (Wide (em_items m) data) = Ok (map (map (fun v => Some (Fin v))) out) /\
    eap_theta_scores mvn m' no_algorithm points (Wide (em_items m) data) = Ok (map (map (fun v => Some (Fin v))) (map (standard s []) out)).
Proof.
  intros mvn nanl x s logpdf points data H HU HS m m' Hlv HMV HQ Hg Hne HD. assert (HM : library_model m (chances x)) by (now apply model_library). assert (HM' : library_model m' (chances (rescale s [] x))) by (now apply model_library, rescaled_well_formed).
  assert (EC : em_cats m = cats_of x) by apply model_cats. assert (EC' : em_cats m' = em_cats m) by (unfold m, m'; rewrite !model_cats; apply rescaled_cats). assert (EL : em_lv m = latents x) by apply model_lv.
  assert (EL' : em_lv m' = em_lv m) by (unfold m, m'; rewrite !model_lv; apply rescaled_latents). set (g := match points with Some g => g | None => eap_default_points (em_lv m) end) in *.
  destruct (T_Est.unfitted_grid mvn m (chances x) logpdf points data HM Hlv HMV ltac:(fold g; lia) Hne HD) as (grid & Eg & E1).
  destruct (T_Est.unfitted_grid mvn m' (chances (rescale s [] x)) logpdf points data HM' ltac:(now rewrite EL') ltac:(now rewrite EL') ltac:(rewrite EL'; fold g; lia) Hne ltac:(now rewrite EC')) as (grid' & Eg' & E2).
  rewrite EL' in Eg', E2. fold g in Eg, Eg'. subst grid'. rewrite <- Eg in E2. replace (em_items m') with (em_items m) in E2 by (unfold em_items; now rewrite EC').
  assert (HF : Forall (fun t => length t = em_lv m) grid) by (rewrite Eg; apply Forall_forall; intros t Ht; apply in_product in Ht; apply Forall2_len in Ht; now rewrite repeat_length in Ht).
  exists (map (fun row => map (posterior_mean (chances x) grid (fun t => exp (logpdf t)) row) (seq 0 (em_lv m))) data). split; [rewrite E1; f_equal; rewrite map_map; apply map_ext; intro row; now rewrite map_map|].
  rewrite E2. f_equal. rewrite !map_map. apply map_ext_in. intros row Hr. unfold standard. rewrite map_length, seq_length, map_map. apply map_ext_in. intros d Hd. apply in_seq in Hd. do 2 f_equal. rewrite nth_map_seq by lia.
  rewrite EL in *. rewrite (posterior_sign s x) by (solve [assumption|lia|rewrite Eg; now apply grid_sign|intros; now rewrite HQ|unfold legal_data in HD; rewrite Forall_forall in HD; rewrite <- EC; auto]).
  replace (nth d (@nil R) 0) with 0 by (destruct d; reflexivity). now rewrite Rminus_0_r.
Qed.
Print Assumptions C110_sign_scores.
Example C110_sign_nonvacuous : well_formed two_items /\ units [-1] two_items /\ signs [-1] /\ legal_data (em_cats (model_of 0 two_items)) three_rows /\
  (forall t, length t = em_lv (model_of 0 two_items) -> ln (diag_normal_pdf (repeat 0 2) (repeat 1 2) (standard [-1] [] t)) = ln (diag_normal_pdf (repeat 0 2) (repeat 1 2) t)) /\
  Permutation (combine [1; 2; 1] (map (standard [-1] []) [[-1; 0]; [0; 3]; [1; 0]])) (combine [1; 2; 1] [[-1; 0]; [0; 3]; [1; 0]]).
Proof.
  split; [exact two_items_wf|]. split; [apply two_items_units; intros [|[|d]]; cbn; lra|]. split; [repeat constructor; now right|]. split; [exact three_rows_legal|].
  split; [intros t Ht; now rewrite (C110_normal_even 2) by (auto; repeat constructor; now right)|].
  unfold standard. cbn [length seq map nth combine]. replace ((-1 - 0) / -1) with 1 by field. replace ((0 - 0) / -1) with 0 by field. replace ((0 - 0) / 1) with 0 by field. replace ((3 - 0) / 1) with 3 by field. replace ((1 - 0) / -1) with (-1) by field.
  apply perm_trans with [(1, [1; 0]); (1, [-1; 0]); (2, [0; 3])]; [apply perm_skip, perm_swap|]. apply perm_trans with [(1, [-1; 0]); (1, [1; 0]); (2, [0; 3])]; [apply perm_swap|apply perm_skip, perm_swap].
Qed.
