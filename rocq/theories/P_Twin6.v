(** Lemmas: the loss of marginal maximum likelihood as a function of the parameters. *)
From Coq Require Import Permutation.
From Verif Require Import Base BaseFacts RBase RFacts M_Data M_CV M_Logit M_Lik M_Est M_Stat M_Train M_Mix M_Quad M_Adam P_Data P_Logit P_Lik2 P_Est1 P_Est2 P_Est3 P_Stat4 P_Mix1 P_Quad1 P_Quad2 P_Quad3 P_Sym1 P_Sym2 P_Sym3 P_Sym4 P_Twin1 P_Twin2 P_Twin3 P_Twin4 P_Twin5 S_Logit S_Lik S_Est S_Sym S_Twin.
Import List.
Local Open Scope R_scope.

Definition logs (ws : list R) : list fl := map (fun w => Some (Fin (ln w))) ws.
Definition minus_log (points : list (list R)) (ws : list R) (data : list (list cell)) (x : irt) : R := - rsum (map (fun row => ln (marginal_likelihood (chances x) points ws row)) data).
Record ready (x : irt) (points : list (list R)) (ws : list R) (data : list (list cell)) : Prop := {
  r_plain : plain_model x; r_wf : well_formed x; r_points : points <> []; r_len : length ws = length points; r_lv : Forall (fun t => length t = latents x) points;
  r_pos : Forall (fun w => 0 < w) ws; r_legal : legal_data (cats_of x) data }.
Lemma loss_number nanl x points ws data p : ready x points ws data -> length p = length (parameters x) ->
  number (step_loss (fun p => model_of nanl (with_parameters x p)) points (logs ws) (Wide (length (cats_of x)) data) p) = minus_log points ws data (with_parameters x p).
Proof.
  intros [H1 H2 H3 H4 H5 H6 H7] HL. unfold step_loss, logs. pose proof (with_well_formed x p H1 H2 HL) as W. pose proof (mml_library _ _ points ws data (model_library nanl _ W) H3 H4) as Q. unfold em_items in Q. rewrite model_lv, model_cats, with_latents, with_cats in Q. rewrite (Q H5 H6 H7). reflexivity.
Qed.
Lemma latent_exchange nanl x points ws data d e : slope_model x -> ready x points ws data -> same_columns x d e -> (d < latents x)%nat -> (e < latents x)%nat -> symmetric_rule d e points ws ->
  exchangeable (length (parameters x)) (latent_pairs x d e) (fun p => number (step_loss (fun p => model_of nanl (with_parameters x p)) points (logs ws) (Wide (length (cats_of x)) data) p)).
Proof.
  intros HS HR HC Hd He HP p u v t HL HA HUV. rewrite !loss_number by (try assumption; now rewrite upd_length). unfold minus_log. do 2 f_equal. apply map_ext. intro row. f_equal. apply (marginal_swap d e (latents x)); [exact (r_lv _ _ _ _ HR)| |exact HP].
  intros th i k Ht. apply latent_chances; try assumption. exact (r_wf _ _ _ _ HR).
Qed.
Lemma item_exchange nanl x points ws data i j : ready x points ws data -> twins x i j -> (i < length (cats_of x))%nat -> (j < length (cats_of x))%nat -> Forall (fun row => nth i row None = nth j row None) data ->
  exchangeable (length (parameters x)) (item_pairs x i j) (fun p => number (step_loss (fun p => model_of nanl (with_parameters x p)) points (logs ws) (Wide (length (cats_of x)) data) p)).
Proof.
  intros HR HT Hi Hj HD p u v t HL HA HUV. rewrite !loss_number by (try assumption; now rewrite upd_length). unfold minus_log. do 2 f_equal. apply map_ext_in. intros row Hrow. f_equal. apply marginal_ext; [reflexivity|]. intros q _. rewrite Forall_forall in HD.
  assert (LR : length row = length (cats_of x)) by (pose proof (r_legal _ _ _ _ HR) as LD; unfold legal_data in LD; rewrite Forall_forall in LD; exact (proj1 (LD row Hrow))).
  apply (likelihood_swap i j); [lia|lia|now apply HD|]. intros a k. apply item_chances; try assumption; [exact (r_plain _ _ _ _ HR)|exact (r_wf _ _ _ _ HR)].
Qed.

(** ** The rule in use *)
Lemma points_count lv requested n : mml_points lv requested = Ok n -> requested <> Some 0%nat -> (0 < n)%nat.
Proof.
  destruct requested as [q|]; cbn [mml_points]; [intros E H; injection E as <-; destruct q; [congruence|lia]|]. destruct (3 <? lv)%nat; [discriminate|]. intros E _. injection E as <-. destruct lv as [|[|[|[|lv]]]]; lia.
Qed.
Lemma product_nonempty {A} (l : list A) n : l <> [] -> product (repeat l n) <> [].
Proof. intro H. induction n as [|n IH]; [discriminate|]. cbn [repeat product]. destruct l as [|a l]; [congruence|]. cbn [flat_map]. intro E. apply app_eq_nil in E as [E _]. apply map_eq_nil in E. now apply IH. Qed.
Lemma rule_ready hermgauss gh lv requested cov rule : proper_hermgauss hermgauss -> requested <> Some 0%nat -> mml_rule hermgauss gh lv requested cov = Ok rule ->
  exists ws, snd rule = logs ws /\ length ws = length (fst rule) /\ fst rule <> [] /\ Forall (fun t => length t = lv) (fst rule) /\ Forall (fun w => 0 < w) ws /\
    forall d e, (d < lv)%nat -> (e < lv)%nat -> even_covariance gh lv d e cov -> symmetric_rule d e (fst rule) ws.
Proof.
  intros HG HQ H. unfold mml_rule in H. destruct (mml_points lv requested) as [n|] eqn:EP; [|discriminate]. cbn [bind] in H. pose proof (points_count _ _ _ EP HQ) as Hn. destruct (mml_covariance lv cov) as [c|] eqn:EC; [|discriminate]. cbn [bind] in H. destruct gh.
  - destruct n as [|n]; [lia|]. destruct (gauss_hermite _ _ _ _) as [[ps ws]|] eqn:EG; [|discriminate]. cbn [bind] in H. injection H as <-. cbn [fst snd]. destruct (HG (S n) Hn) as (G1 & G2 & G3).
    destruct (gauss_hermite_shape _ _ _ _ _ EG) as (S1 & S2 & S3 & S4); [congruence|intro Q; rewrite Q in G1; discriminate|exact G3|]. cbn [fst snd] in *. rewrite repeat_length in S4. exists ws. repeat split; try assumption.
    + unfold logs. apply map_ext_in. intros w Hw. rewrite Forall_forall in S3. now apply flog_pos, S3.
    + intros d e Hd He HE. destruct cov as [c0|]; [destruct HE; discriminate|]. cbn [mml_covariance] in EC. injection EC as <-. apply (gauss_hermite_symmetric d e lv _ _ (ps, ws)) in EG; [exact EG|exact Hd|exact He|congruence].
  - destruct (mvn _ _ _) as [f|] eqn:EM; [|discriminate]. cbn [bind] in H. injection H as <-. exists (map (fun t => exp (f t)) (fst (mml_quasi_mc n lv f))). unfold mml_quasi_mc. cbn [fst snd]. repeat split.
    + unfold logs. rewrite map_map. apply map_ext. intro t. now rewrite ln_exp.
    + now rewrite map_length.
    + apply product_nonempty. intro Q. pose proof (linspace_first (-3) 3 n Hn) as L. rewrite Q in L. exact L.
    + apply Forall_forall. intros t Ht. exact (product_len _ lv t Ht).
    + apply Forall_forall. intros w Hw. apply in_map_iff in Hw as (t & <- & _). apply exp_pos.
    + intros d e Hd He HE. apply (quasi_mc_symmetric d e n lv f Hd He). intros x Hx. destruct cov as [c0|]; cbn [mml_covariance] in EC.
      * destruct HE as (_ & HF & HX). destruct (Nat.eqb_spec (length (w_rows c0)) lv) as [E1|]; [|discriminate]. destruct (Nat.eqb_spec (w_cols c0) lv) as [E2|]; [|discriminate]. cbn [andb] in EC. injection EC as <-. rewrite E2 in HF. now apply (mvn_swap d e lv (w_rows c0)).
      * injection EC as <-. apply (mvn_swap d e lv (identity lv)); try assumption.
        -- intros i j Hi Hj. rewrite !identity_at by (try assumption; now apply transpose_lt). destruct (Nat.eqb_spec i j) as [->|N]; [now rewrite Nat.eqb_refl|]. destruct (Nat.eqb_spec (transpose d e i) (transpose d e j)) as [E|]; [|reflexivity]. exfalso. apply N. rewrite <- (transpose_twice d e i), <- (transpose_twice d e j). now rewrite E.
        -- unfold identity. now rewrite map_length, seq_length.
        -- unfold identity. apply Forall_forall. intros r Hr. apply in_map_iff in Hr as (i & <- & _). now rewrite map_length, seq_length.
Qed.
(** ** The fit keeps what is alike alike *)
Lemma fit_alike hermgauss autograd gh requested cov lr patience limit epochs build lv data start r n (pairs : nat -> nat -> Prop) :
  (forall u v, pairs u v -> (u < n)%nat /\ (v < n)%nat) -> length start = n -> alike pairs start ->
  (forall rule, mml_rule hermgauss gh lv requested cov = Ok rule -> gradient n (fun p => number (step_loss build (fst rule) (snd rule) data p)) (autograd (fst rule) (snd rule)) /\ exchangeable n pairs (fun p => number (step_loss build (fst rule) (snd rule) data p))) ->
  mml_fit_parameters hermgauss autograd gh requested cov lr patience limit epochs build lv data start = Ok r -> length (ad_x (tr_w r)) = n /\ alike pairs (ad_x (tr_w r)).
Proof.
  intros HI HL HA HG H. unfold mml_fit_parameters in H. destruct (mml_rule _ _ _ _ _) as [rule|] eqn:ER; [|discriminate]. cbn [bind] in H. injection H as <-. destruct (HG rule eq_refl) as [G X].
  match goal with |- context [tr_w ?t] => assert (Q : good n pairs (tr_w t)) end.
  - apply (mml_kept _ _ (good n pairs)); [|now apply good_new]. intros rate s Hs. now apply (good_update n pairs HI (fun p => number (step_loss build (fst rule) (snd rule) data p)) (autograd (fst rule) (snd rule))).
  - destruct Q as ((Q1 & _) & Q2 & _). now split.
Qed.
