(** Property theorems C114: parameters that start alike. *)
From Coq Require Import Permutation.
From Verif Require Import Base BaseFacts RBase RFacts M_Data M_CV M_Logit M_Lik M_Est M_Stat M_Train M_Mix M_Quad M_Adam P_Data P_Logit P_Lik2 P_Est1 P_Est2 P_Est3 P_Stat4 P_Mix1 P_Quad1 P_Quad2 P_Quad3 P_Sym1 P_Sym2 P_Sym3 P_Sym4 P_Twin1 P_Twin2 P_Twin3 P_Twin4 P_Twin5 P_Twin6 P_Twin7 S_Logit S_Lik S_Est S_Sym S_Quad S_Twin.
Import List.
Local Open Scope R_scope.

(** No training loop tells apart parameters that start equal and are exchangeable in the loss of every batch. *)
Theorem C114_alike : forall {B} n (pairs : nat -> nat -> Prop) (F : B -> list R -> R) (autograd : B -> list R -> list R) (loss : B -> adam -> fl) start,
  (forall j k, pairs j k -> (j < n)%nat /\ (k < n)%nat) -> length start = n -> alike pairs start ->
  (forall b, gradient n (F b) (autograd b)) -> (forall b, exchangeable n pairs (F b)) ->
  let update b rate s := adam_step rate (autograd b (ad_x s)) s in
  (forall lr patience limit epochs data, alike pairs (ad_x (tr_w (mml_train loss update lr patience limit epochs data (adam_new start))))) /\
  (forall lr patience limit epochs batches, alike pairs (ad_x (tr_w (jml_train loss update lr patience limit epochs batches (adam_new start))))) /\
  (forall lr limit epochs interval norm small loader r, ae_train loss update lr limit epochs interval norm small loader (adam_new start) = Ok r -> alike pairs (ad_x (tr_w r))).
Proof.
  intros B n pairs F autograd loss start HI HL HA HG HX update.
  assert (U : forall b rate s, good n pairs s -> good n pairs (update b rate s)) by (intros b rate s Hs; unfold update; now apply (good_update n pairs HI (F b) (autograd b))).
  assert (S : good n pairs (adam_new start)) by (now apply good_new). split; [|split].
  - intros. match goal with |- context [tr_w ?t] => assert (Q : good n pairs (tr_w t)) end; [|apply Q]. now apply (mml_kept _ _ (good n pairs)); [intros; apply U|].
  - intros. match goal with |- context [tr_w ?t] => assert (Q : good n pairs (tr_w t)) end; [|apply Q]. now apply (jml_kept _ _ (good n pairs)); [intros; apply U|].
  - intros lr limit epochs interval norm small loader r H. assert (Q : good n pairs (tr_w r)); [|apply Q]. revert H. apply (ae_kept _ _ (good n pairs)); [intros; now apply U|exact S].
Qed.
Print Assumptions C114_alike.

(** The loss of every epoch has a gradient. *)
Theorem C114_gradient : forall hermgauss gh requested cov nanl x data rule,
  plain_model x -> well_formed x -> legal_data (cats_of x) data -> proper_hermgauss hermgauss -> requested <> Some 0%nat ->
  mml_rule hermgauss gh (latents x) requested cov = Ok rule ->
  exists autograd, true_gradient autograd nanl x (Wide (length (cats_of x)) data) (fst rule) (snd rule).
Proof.
  intros hermgauss gh requested cov nanl x data rule HP HW HD HG HQ HR. destruct (rule_ready _ _ _ _ _ _ HG HQ HR) as (ws & E & L & N & V & P & _).
  destruct (gradient_exists nanl x (fst rule) ws data) as (g & G); [now constructor|]. exists (fun _ _ => g). unfold true_gradient. rewrite E. exact G.
Qed.
Print Assumptions C114_gradient.

(** Items that everybody answered alike get the same parameters. *)
Theorem C114_items : forall hermgauss autograd gh requested cov lr patience limit epochs nanl x data i j r,
  plain_model x -> well_formed x -> legal_data (cats_of x) data -> proper_hermgauss hermgauss -> requested <> Some 0%nat ->
  (i < length (cats_of x))%nat -> (j < length (cats_of x))%nat -> twins x i j -> same_item x i j -> Forall (fun row => nth i row None = nth j row None) data ->
  (forall rule, mml_rule hermgauss gh (latents x) requested cov = Ok rule -> true_gradient autograd nanl x (Wide (length (cats_of x)) data) (fst rule) (snd rule)) ->
  mml_fit_parameters hermgauss autograd gh requested cov lr patience limit epochs (fun p => model_of nanl (with_parameters x p)) (latents x) (Wide (length (cats_of x)) data) (parameters x) = Ok r ->
  same_item (with_parameters x (ad_x (tr_w r))) i j.
Proof.
  intros hermgauss autograd gh requested cov lr patience limit epochs nanl x data i j r HP HW HD HG HQ Hi Hj HT HS HC HA H.
  assert (Q : length (ad_x (tr_w r)) = length (parameters x) /\ alike (item_pairs x i j) (ad_x (tr_w r))).
  { apply (fit_alike _ _ _ _ _ _ _ _ _ _ _ _ _ _ (length (parameters x)) (item_pairs x i j)) in H; [exact H|now apply item_inside|reflexivity|now apply alike_item|].
    intros rule HR. split; [exact (HA rule HR)|]. destruct (rule_ready _ _ _ _ _ _ HG HQ HR) as (ws & E & L & N & V & P & _). rewrite E. apply item_exchange; try assumption. now constructor. }
  destruct Q as [Q1 Q2]. now apply item_alike.
Qed.
Print Assumptions C114_items.

(** Latent variables with the same relationships whose slopes start equal keep equal slopes. *)
Theorem C114_latent : forall hermgauss autograd gh requested cov lr patience limit epochs nanl x data d e r,
  slope_model x -> well_formed x -> legal_data (cats_of x) data -> proper_hermgauss hermgauss -> requested <> Some 0%nat ->
  (d < latents x)%nat -> (e < latents x)%nat -> same_columns x d e -> (forall i, slope_of x i d = slope_of x i e) -> even_covariance gh (latents x) d e cov ->
  (forall rule, mml_rule hermgauss gh (latents x) requested cov = Ok rule -> true_gradient autograd nanl x (Wide (length (cats_of x)) data) (fst rule) (snd rule)) ->
  mml_fit_parameters hermgauss autograd gh requested cov lr patience limit epochs (fun p => model_of nanl (with_parameters x p)) (latents x) (Wide (length (cats_of x)) data) (parameters x) = Ok r ->
  forall i, slope_of (with_parameters x (ad_x (tr_w r))) i d = slope_of (with_parameters x (ad_x (tr_w r))) i e.
Proof.
  intros hermgauss autograd gh requested cov lr patience limit epochs nanl x data d e r HS HW HD HG HQ Hd He HC HE HV HA H i. assert (HP : plain_model x) by (destruct x; cbn in HS |- *; tauto).
  assert (Q : length (ad_x (tr_w r)) = length (parameters x) /\ alike (latent_pairs x d e) (ad_x (tr_w r))).
  { apply (fit_alike _ _ _ _ _ _ _ _ _ _ _ _ _ _ (length (parameters x)) (latent_pairs x d e)) in H; [exact H|intros u v; now apply latent_inside|reflexivity|now apply alike_latent|].
    intros rule HR. split; [exact (HA rule HR)|]. destruct (rule_ready _ _ _ _ _ _ HG HQ HR) as (ws & E & L & N & V & P & Y). rewrite E. apply latent_exchange; try assumption; [now constructor|now apply Y]. }
  destruct Q as [Q1 Q2]. now apply latent_alike.
Qed.
Print Assumptions C114_latent.

(** The fitted model is the same function of the sum of the two latent variables. *)
Lemma sum_only x d e : slope_model x -> (d < latents x)%nat -> (e < latents x)%nat -> d <> e -> (forall i, slope_of x i d = slope_of x i e) -> only_the_sum x d e.
Proof.
  intros HS Hd He N H th th' L L' E HO i k. assert (HP : plain_model x) by (destruct x; cbn in HS |- *; tauto). rewrite !chances_response by exact HP. f_equal.
  assert (EO : forall t, eta_of x i t = predictor (latents x) (slope_of x i) t) by (intro t; destruct x; cbn in HS |- *; tauto || reflexivity). rewrite !EO. unfold predictor.
  set (a := slope_of x i). assert (G : forall t, sumn (latents x) (fun k => a k * nth k t 0) = a d * (nth d t 0 + nth e t 0) + sumn (latents x) (fun k => if (k =? d)%nat || (k =? e)%nat then 0 else a k * nth k t 0)).
  { intro t. rewrite (sumn_ext (latents x) (fun k => a k * nth k t 0) (fun k => (if (k =? d)%nat then a d * nth d t 0 else 0) + ((if (k =? e)%nat then a e * nth e t 0 else 0) + (if (k =? d)%nat || (k =? e)%nat then 0 else a k * nth k t 0)))).
    - rewrite !sumn_plus. rewrite (sumn_single (latents x) d (fun k => if (k =? d)%nat then a d * nth d t 0 else 0)); [|exact Hd|intros c _ Nc; destruct (Nat.eqb_spec c d); [contradiction|reflexivity]].
      rewrite (sumn_single (latents x) e (fun k => if (k =? e)%nat then a e * nth e t 0 else 0)); [|exact He|intros c _ Nc; destruct (Nat.eqb_spec c e); [contradiction|reflexivity]]. rewrite !Nat.eqb_refl. assert (A : a d = a e) by apply H. rewrite <- A. ring.
    - intros c _. destruct (Nat.eqb_spec c d) as [->|N1]; [destruct (Nat.eqb_spec d e); [contradiction|cbn [orb]; ring]|]. destruct (Nat.eqb_spec c e) as [->|N2]; cbn [orb]; ring. }
  rewrite !G, E. f_equal. apply sumn_ext. intros c _. destruct (Nat.eqb_spec c d); [reflexivity|]. destruct (Nat.eqb_spec c e); [reflexivity|]. cbn [orb]. now rewrite HO.
Qed.
Lemma relationships_shape items lv rel free : relationships items lv rel = Ok free -> length free = items /\ Forall (fun r => length r = lv) free.
Proof.
  destruct rel as [f|]; cbn [relationships].
  - destruct (Nat.eqb_spec (length f) items) as [E|]; [|discriminate]. destruct (forallb (fun row => (length row =? lv)%nat) f) eqn:EF; [|discriminate]. cbn [andb negb]. destruct (forallb (existsb (fun b : bool => b)) f); [|discriminate]. cbn [negb]. intro Q. injection Q as <-. split; [exact E|]. rewrite forallb_forall in EF. apply Forall_forall. intros r Hr. now apply Nat.eqb_eq, EF.
  - intro Q. injection Q as <-. split; [apply repeat_length|]. apply Forall_forall. intros r Hr. apply repeat_spec in Hr as ->. apply repeat_length.
Qed.
Lemma pred_sum cats : Forall (fun K => (1 <= K)%nat) cats -> (list_sum cats - length cats = list_sum (map pred cats))%nat.
Proof. induction 1 as [|K cats HK HC IH]; [reflexivity|]. cbn [map length]. unfold list_sum in *. cbn [fold_right]. assert (G : (length cats <= fold_right Nat.add 0 cats)%nat) by (clear - HC; induction HC as [|K cats HK _ IH]; cbn; lia). lia. Qed.
Lemma constructed_start x d e : constructed x -> (0 < latents x)%nat -> same_columns x d e -> slope_model x /\ well_formed x /\ forall i, slope_of x i d = slope_of x i e.
Proof.
  assert (SO : forall free i, (forall i, nth d (nth i free []) false = nth e (nth i free []) false) -> slope free (repeat 1 (ctrue (concat free))) i d = slope free (repeat 1 (ctrue (concat free))) i e).
  { intros free i H. rewrite !slope_place, <- H. destruct (nth d (nth i free []) false) eqn:E; [|reflexivity]. assert (O : forall n k, (k < n)%nat -> nth k (repeat 1 n) 0 = 1) by (induction n as [|n IH]; intros [|k] Hk; try lia; [reflexivity|]; apply IH; lia).
    rewrite !O; [reflexivity| |]; apply place_lt; congruence. }
  intros HC HL HS. destruct x as [m|m|m|m|m|m]; cbn [constructed] in HC; try contradiction; (split; [exact I|]); unfold same_columns in HS; cbn [relations latents slope_of well_formed] in *.
  - destruct HC as (items & rel & Hi & H). unfold tpl_init in H. destruct (relationships items (tpl_lv m) rel) as [free|] eqn:ER; [|discriminate]. apply (f_equal (fun r => match r with Ok y => y | Err _ => m end)) in H. cbn [rmap bind] in H. destruct (relationships_shape _ _ _ _ ER) as [L F].
    rewrite <- H in HS, HL, F |- *. cbn [tpl_free tpl_lv tpl_w tpl_b] in *. split; [|intro i; now apply SO]. unfold tpl_wf, tpl_items. cbn [tpl_free tpl_lv tpl_w tpl_b]. rewrite !repeat_length. repeat split; try assumption; lia.
  - destruct HC as (items & rel & Hi & H). unfold thpl_init in H. destruct (relationships items (thpl_lv m) rel) as [free|] eqn:ER; [|discriminate]. apply (f_equal (fun r => match r with Ok y => y | Err _ => m end)) in H. cbn [rmap bind] in H. destruct (relationships_shape _ _ _ _ ER) as [L F].
    rewrite <- H in HS, HL, F |- *. cbn [thpl_free thpl_lv thpl_w thpl_b thpl_g] in *. split; [|intro i; now apply SO]. unfold thpl_wf, thpl_items. cbn [thpl_free thpl_lv thpl_w thpl_b thpl_g]. rewrite !repeat_length. repeat split; try assumption; lia.
  - destruct HC as (rel & Hi & HK & H). unfold gpc_init in H. destruct (relationships (length (p_cats m)) (p_lv m) rel) as [free|] eqn:ER; [|discriminate]. apply (f_equal (fun r => match r with Ok y => y | Err _ => m end)) in H. cbn [rmap bind] in H. destruct (relationships_shape _ _ _ _ ER) as [L F].
    unfold p_items in Hi. rewrite <- H in HS, HL, F, HK, Hi, L |- *. cbn [p_cats p_free p_lv p_w p_b] in *. split; [|intro i; now apply SO]. unfold poly_wf, p_items. cbn [p_cats p_free p_lv p_w p_b]. rewrite !repeat_length. repeat split; try assumption. now apply pred_sum.
Qed.
(** The user expects a model with several latent variables to find several dimensions.  It finds one for all latent variables with the
    same relationships: the models start with all slopes equal to one, and nothing in marginal maximum likelihood ever tells them apart. *)
Theorem C114_dimensions_refuted : forall hermgauss autograd gh requested lr patience limit epochs nanl x data d e r,
  constructed x -> legal_data (cats_of x) data -> proper_hermgauss hermgauss -> requested <> Some 0%nat ->
  (d < latents x)%nat -> (e < latents x)%nat -> d <> e -> same_columns x d e ->
  (forall rule, mml_rule hermgauss gh (latents x) requested None = Ok rule -> true_gradient autograd nanl x (Wide (length (cats_of x)) data) (fst rule) (snd rule)) ->
  mml_fit_parameters hermgauss autograd gh requested None lr patience limit epochs (fun p => model_of nanl (with_parameters x p)) (latents x) (Wide (length (cats_of x)) data) (parameters x) = Ok r ->
  (forall i, slope_of (with_parameters x (ad_x (tr_w r))) i d = slope_of (with_parameters x (ad_x (tr_w r))) i e) /\ only_the_sum (with_parameters x (ad_x (tr_w r))) d e.
Proof.
  intros hermgauss autograd gh requested lr patience limit epochs nanl x data d e r HB HD HG HQ Hd He N HC HA H. destruct (constructed_start x d e HB ltac:(lia) HC) as (HS & HW & HE).
  assert (Q := C114_latent hermgauss autograd gh requested None lr patience limit epochs nanl x data d e r HS HW HD HG HQ Hd He HC HE I HA H). split; [exact Q|]. apply sum_only; rewrite ?with_latents; try assumption. destruct x; exact HS.
Qed.
Print Assumptions C114_dimensions_refuted.

(** With the default settings the rule is never refused. *)
Theorem C114_runs : forall hermgauss autograd gh lr patience limit epochs build lv data start, (1 <= lv <= 3)%nat -> exists r, mml_fit_parameters hermgauss autograd gh None None lr patience limit epochs build lv data start = Ok r.
Proof.
  intros hermgauss autograd gh lr patience limit epochs build lv data start Hlv. unfold mml_fit_parameters. assert (E : exists rule, mml_rule hermgauss gh lv None None = Ok rule); [|destruct E as (rule & ->); cbn [bind]; eauto].
  assert (IL : length (identity lv) = lv) by (unfold identity; now rewrite map_length, seq_length).
  assert (EQ : forall s, (forall i j, (i < lv)%nat -> (j < lv)%nat -> s i j = if (i =? j)%nat then 1 else 0) -> symmetric_matrix lv s /\ exists L, chol lv s = Some L).
  { intros s Hs. assert (SY : symmetric_matrix lv s) by (intros i j Hi Hj; rewrite !Hs by assumption; now rewrite Nat.eqb_sym). split; [exact SY|]. apply definite_chol; [exact SY|].
    intros v Hv. rewrite (sumn_ext lv _ (fun i => v i * v i)).
    - destruct Hv as (k & Hk & Nk). apply (sumn_pos_one lv _ k); [intros; nra|exact Hk|nra].
    - intros i Hi. rewrite (sumn_single lv i (fun j => v i * s i j * v j)); [rewrite Hs, Nat.eqb_refl by assumption; ring|exact Hi|]. intros j Hj Nj. rewrite Hs by assumption. destruct (Nat.eqb_spec i j); [congruence|ring]. }
  unfold mml_rule. assert (EP : exists n, mml_points lv None = Ok (S n)). { cbn [mml_points]. replace (3 <? lv)%nat with false by (symmetry; apply Nat.ltb_ge; lia). destruct lv as [|[|[|[|lv]]]]; try lia; eauto. }
  destruct EP as (n & ->). cbn [bind mml_covariance]. destruct gh.
  - unfold gauss_hermite. cbn [w_rows w_cols]. rewrite repeat_length, IL, Nat.eqb_refl. destruct (EQ (at_ (Wide lv (identity lv)))) as (_ & L & ->); [intros i j Hi Hj; unfold at_; cbn [w_rows]; now apply identity_at|]. cbn [bind]. eauto.
  - unfold mvn. set (s := entry (map (map (fun x => Some (Fin x))) (identity lv))). assert (Hs : forall i j, (i < lv)%nat -> (j < lv)%nat -> s i j = if (i =? j)%nat then 1 else 0).
    { intros i j Hi Hj. rewrite <- (identity_at lv i j Hi Hj). unfold s, entry. rewrite (nth_indep _ [] (map (fun x => Some (Fin x)) [])) by (rewrite map_length; lia). rewrite (map_nth (map (fun x => Some (Fin x)))). assert (Lr : length (nth i (identity lv) []) = lv) by (unfold identity; rewrite (nth_map_seq (fun i => map (fun j => if (i =? j)%nat then 1 else 0) (seq 0 lv)) lv i []) by exact Hi; now rewrite map_length, seq_length).
      rewrite (nth_indep _ None (Some (Fin 0))) by (rewrite map_length; lia). now rewrite (map_nth (fun x => Some (Fin x))). }
    destruct (EQ s Hs) as (SY & L & ->). replace (forallb is_fin (repeat (Some (Fin 0)) lv)) with true by (symmetry; apply forallb_forall; intros y Hy; apply repeat_spec in Hy as ->; reflexivity).
    replace (forallb (forallb is_fin) (map (map (fun x => Some (Fin x))) (identity lv))) with true by (symmetry; apply forallb_forall; intros r Hr; apply in_map_iff in Hr as (r' & <- & _); apply forallb_forall; intros y Hy; apply in_map_iff in Hy as (z & <- & _); reflexivity).
    replace (symmetric lv s) with true; [cbn [andb bind]; eauto|]. symmetry. unfold symmetric. apply forallb_forall. intros i Hi. apply in_seq in Hi. apply forallb_forall. intros j Hj. apply in_seq in Hj. destruct (Req_EM_T (s i j) (s j i)) as [|Q]; [reflexivity|]. exfalso. apply Q. apply SY; lia.
Qed.
Print Assumptions C114_runs.

(** ** Instances *)
(** Two numbers whose sum should be three: both go halfway. *)
Example C114_alike_nonvacuous : exists autograd : unit -> list R -> list R,
  let F := fun (_ : unit) (p : list R) => (nth 0 p 0 + nth 1 p 0 - 3) ^ 2 in
  let pairs := fun j k => j = 0%nat /\ k = 1%nat in
  gradient 2 (F tt) (autograd tt) /\ exchangeable 2 pairs (F tt) /\
  forall loss, alike pairs (ad_x (tr_w (mml_train loss (fun b rate s => adam_step rate (autograd b (ad_x s)) s) (1 / 10) 7 2 50 tt (adam_new [0; 0])))).
Proof.
  exists (fun _ p => let v := 2 * (nth 0 p 0 + nth 1 p 0 - 3) in [v; v]). cbv zeta.
  assert (G : gradient 2 (fun p => (nth 0 p 0 + nth 1 p 0 - 3) ^ 2) (fun p => [2 * (nth 0 p 0 + nth 1 p 0 - 3); 2 * (nth 0 p 0 + nth 1 p 0 - 3)])).
  { intros p HL. split; [reflexivity|]. destruct p as [|a [|b [|? ?]]]; try discriminate. cbn [nth]. assert (D : forall c t, derivable_pt_lim (fun t => (t + c) ^ 2) t (2 * (t + c))).
    { intros c t. apply (derivable_pt_lim_ext (fun t => (t + c) * (t + c))); [intro; ring|]. replace (2 * (t + c)) with (1 * (t + c) + (t + c) * 1) by ring. apply (derivable_pt_lim_mult (fun t => t + c) (fun t => t + c)); (replace 1 with (1 + 0) by ring; apply (derivable_pt_lim_plus (fun t => t) (fun _ => c)); [apply derivable_pt_lim_id|apply derivable_pt_lim_const]). }
    intros [|[|k]] Hk; [| |lia]; cbn [upd nth].
    - replace (a + b - 3) with (a + (b - 3)) by ring. apply (derivable_pt_lim_ext (fun t => (t + (b - 3)) ^ 2)); [intro; ring|apply D].
    - replace (a + b - 3) with (b + (a - 3)) by ring. apply (derivable_pt_lim_ext (fun t => (t + (a - 3)) ^ 2)); [intro; ring|apply D]. }
  assert (X : exchangeable 2 (fun j k => j = 0%nat /\ k = 1%nat) (fun p => (nth 0 p 0 + nth 1 p 0 - 3) ^ 2)).
  { intros p j k t HL HA [-> ->]. specialize (HA 0%nat 1%nat (conj eq_refl eq_refl)). destruct p as [|a [|b [|? ?]]]; try discriminate. cbn [upd nth] in *. subst b. ring. }
  split; [exact G|]. split; [exact X|]. intro loss.
  apply (proj1 (C114_alike 2 (fun j k => j = 0%nat /\ k = 1%nat) (fun _ : unit => fun p => (nth 0 p 0 + nth 1 p 0 - 3) ^ 2) (fun _ p => [2 * (nth 0 p 0 + nth 1 p 0 - 3); 2 * (nth 0 p 0 + nth 1 p 0 - 3)]) loss [0; 0]
    ltac:(intros j k [-> ->]; lia) eq_refl ltac:(intros j k [-> ->]; reflexivity) (fun _ => G) (fun _ => X))).
Qed.
(** Three items and two latent variables; the first two items always agree, the third does not follow them. *)
Definition ex_start : tpl := {| tpl_lv := 2; tpl_free := [[true; true]; [true; true]; [true; true]]; tpl_w := [1; 1; 1; 1; 1; 1]; tpl_b := [0; 0; 0] |}.
Definition ex_answers : list (list cell) := [[Some 1; Some 1; Some 0]; [Some 0; Some 0; Some 1]; [Some 1; Some 1; Some 1]; [Some 0; Some 0; None]]%Z.
Lemma ex_legal : legal_data (cats_of (Tpl ex_start)) ex_answers.
Proof.
  unfold legal_data, ex_answers. apply Forall_forall. intros row Hr. split; [destruct Hr as [<- |[<- |[<- |[<- |[]]]]]; reflexivity|]. intros i c Hc.
  assert (C : In c row) by (now apply nth_error_In in Hc). assert (L : (i < 3)%nat) by (replace 3%nat with (length row) by (destruct Hr as [<- |[<- |[<- |[<- |[]]]]]; reflexivity); apply nth_error_Some; congruence).
  assert (K : nth i (cats_of (Tpl ex_start)) O = 2%nat) by (destruct i as [|[|[|i]]]; [reflexivity..|lia]). rewrite K.
  assert (D : c = None \/ c = Some 0%Z \/ c = Some 1%Z) by (destruct Hr as [<- |[<- |[<- |[<- |[]]]]]; cbn in C; intuition congruence).
  destruct D as [->|[->| ->]]; [now left|right; right; exists 0%nat; split; [reflexivity|lia]|right; right; exists 1%nat; split; [reflexivity|lia]].
Qed.
Definition no_rule (n : nat) : list R * list R := (repeat 0 n, repeat 1 n).
Lemma no_rule_proper : proper_hermgauss no_rule.
Proof. intros n _. cbn [no_rule fst snd]. rewrite !repeat_length. repeat split. apply Forall_forall. intros w Hw. apply repeat_spec in Hw as ->. lra. Qed.
Lemma ex_constructed : constructed (Tpl ex_start).
Proof. exists 3%nat, None. split; [lia|reflexivity]. Qed.
(** The default settings of MML.fit. *)
Lemma ex_fit : exists autograd r, (forall rule, mml_rule no_rule false 2 None None = Ok rule -> true_gradient autograd 0 (Tpl ex_start) (Wide 3 ex_answers) (fst rule) (snd rule)) /\
  mml_fit_parameters no_rule autograd false None None (1 / 5) 7 2 1000 (fun p => model_of 0 (with_parameters (Tpl ex_start) p)) 2 (Wide 3 ex_answers) (parameters (Tpl ex_start)) = Ok r.
Proof.
  destruct (constructed_start (Tpl ex_start) 0 1 ex_constructed) as (_ & W & _); [cbn; lia|intros [|[|[|i]]]; cbn; try reflexivity; destruct i; reflexivity|].
  destruct (C114_runs no_rule (fun _ _ p => p) false (1 / 5) 7 2 1000 (fun p => model_of 0 (with_parameters (Tpl ex_start) p)) 2 (Wide 3 ex_answers) (parameters (Tpl ex_start)) ltac:(lia)) as (r0 & H0). unfold mml_fit_parameters in H0.
  destruct (mml_rule no_rule false 2 None None) as [rule|] eqn:ER; [|discriminate]. destruct (C114_gradient no_rule false None None 0 (Tpl ex_start) ex_answers rule I W ex_legal no_rule_proper ltac:(discriminate) ER) as (autograd & HG).
  exists autograd. eexists. split.
  - intros rule' E'. injection E' as <-. exact HG.
  - unfold mml_fit_parameters. rewrite ER. cbn [bind]. reflexivity.
Qed.
Example C114_dimensions_nonvacuous : exists autograd r,
  mml_fit_parameters no_rule autograd false None None (1 / 5) 7 2 1000 (fun p => model_of 0 (with_parameters (Tpl ex_start) p)) 2 (Wide 3 ex_answers) (parameters (Tpl ex_start)) = Ok r /\
  let fitted := with_parameters (Tpl ex_start) (ad_x (tr_w r)) in
  (forall i, slope_of fitted i 0 = slope_of fitted i 1) /\ chances fitted [2; -1] 0 1 = chances fitted [0; 1] 0 1 /\ same_item fitted 0 1.
Proof.
  destruct ex_fit as (autograd & r & HG & H). exists autograd, r. split; [exact H|]. cbv zeta. assert (SC : same_columns (Tpl ex_start) 0 1) by (intros [|[|[|i]]]; cbn; try reflexivity; destruct i; reflexivity).
  destruct (C114_dimensions_refuted no_rule autograd false None (1 / 5) 7 2 1000 0 (Tpl ex_start) ex_answers 0 1 r ex_constructed ex_legal no_rule_proper ltac:(discriminate) ltac:(cbn; lia) ltac:(cbn; lia) ltac:(lia) SC HG H) as [Q1 Q2].
  split; [exact Q1|]. split.
  - apply Q2; [reflexivity|reflexivity|cbn; lra|]. intros [|[|k]] N1 N2; [congruence|congruence|]. destruct k; reflexivity.
  - destruct (constructed_start (Tpl ex_start) 0 1 ex_constructed) as (_ & W & _); [cbn; lia|exact SC|]. apply (C114_items no_rule autograd false None None (1 / 5) 7 2 1000 0 (Tpl ex_start) ex_answers 0 1 r I W ex_legal no_rule_proper); try assumption; try (cbn; lia); try discriminate.
    + split; reflexivity.
    + split; [|split]; [intros [|[|d]]; try reflexivity; destruct d; reflexivity|intro k; reflexivity|reflexivity].
    + repeat constructor.
Qed.
(** Correlated latent variables with equal variances are covered by [C114_latent] with the default rule. *)
Example C114_latent_nonvacuous : even_covariance false 2 0 1 (Some (Wide 2 [[1; 1 / 2]; [1 / 2; 1]])).
Proof. split; [reflexivity|]. split; [repeat constructor|]. intros [|[|i]] [|[|j]] Hi Hj; try lia; reflexivity. Qed.
