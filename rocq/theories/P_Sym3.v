(** Losses and scores under the symmetries. *)
From Verif Require Import Base BaseFacts RBase RFacts M_Data M_CV M_Logit M_Lik M_Est M_Opt M_Jml P_Data P_Logit P_Lik5 P_Est1 P_Est2 P_Est3 P_Opt3 P_Stat4 P_Logit3 P_Sym1 P_Sym2 S_Logit S_Lik S_Est S_Sym.
From Verif Require T_Est.
Import List.
From Coq Require Import Permutation.
Local Open Scope R_scope.

Lemma rprod_permutation l l' : Permutation l l' -> rprod l = rprod l'.
Proof. induction 1; cbn [rprod]; [reflexivity|now rewrite IHPermutation|ring|congruence]. Qed.
Definition factor (p : list R -> nat -> nat -> R) (t : list R) (i : nat) (c : cell) : R := match answer c with None => 1 | Some k => p t i k end.
Lemma likelihood_seq p t row n : length row = n -> likelihood p t row = rprod (map (fun i => factor p t i (nth i row None)) (seq 0 n)).
Proof.
  intros <-. unfold likelihood. f_equal. apply nth_error_ext. intro i. destruct (Nat.lt_ge_cases i (length row)) as [Hi|Hi].
  - rewrite nth_error_mapi, nth_error_map_seq, (nth_error_nth_lt row i None) by exact Hi. reflexivity.
  - rewrite (proj2 (nth_error_None _ _)), (proj2 (nth_error_None _ _)); auto; [now rewrite map_length, seq_length|now rewrite BaseFacts.mapi_length].
Qed.
Lemma legal_factor cats row i k : legal_row cats row -> (i < length cats)%nat -> answer (nth i row None) = Some k -> (k < nth i cats O)%nat.
Proof.
  intros [HL HR] Hi E. pose proof (nth_error_nth_lt row i None ltac:(lia)) as En. destruct (HR i _ En) as [Q|[Q|(j & Q & Hj)]]; rewrite Q in E; cbn in E; try discriminate.
  unfold answer in E. destruct (Z.eqb_spec (Z.of_nat j) (-1)); [lia|]. injection E as <-. now rewrite Nat2Z.id.
Qed.
Lemma rescaled_likelihood s c x t row : well_formed x -> units s x -> length t = latents x -> legal_row (cats_of x) row ->
  likelihood (chances (rescale s c x)) (standard s c t) row = likelihood (chances x) t row.
Proof.
  intros H HU Ht HR. pose proof (proj1 HR) as HL. rewrite !(likelihood_seq _ _ row _ HL). f_equal. apply map_ext_in. intros i Hi. apply in_seq in Hi. unfold factor.
  destruct (answer (nth i row None)) as [k|] eqn:E; [|reflexivity]. apply rescaled_chances; auto; [lia|]. apply (legal_factor _ row); auto. lia.
Qed.
Lemma reordered_likelihood order x t row : well_formed x -> Permutation order (seq 0 (length (cats_of x))) -> legal_row (cats_of x) row ->
  likelihood (chances (reorder order x)) t (pick order row None) = likelihood (chances x) t row.
Proof.
  intros H HP HR. destruct (order_below _ _ HP) as (L & B & Bn). pose proof (proj1 HR) as HL. rewrite (likelihood_seq _ _ (pick order row None) (length (cats_of x))) by (now rewrite pick_length).
  rewrite (likelihood_seq _ _ row _ HL). rewrite <- (rprod_permutation _ _ (Permutation_map (fun i => factor (chances x) t i (nth i row None)) HP)). f_equal.
  apply nth_error_ext. intro i. destruct (Nat.lt_ge_cases i (length order)) as [Hi|Hi].
  - rewrite nth_error_map_seq by lia. rewrite nth_error_map, (nth_error_nth_lt order i O Hi). cbn [option_map Nat.add]. f_equal. rewrite pick_nth by exact Hi. unfold factor.
    destruct (answer (nth (nth i order O) row None)) as [k|] eqn:E; [|reflexivity]. apply reordered_chances; auto; [lia|]. apply (legal_factor _ row); auto. apply Bn. lia.
  - rewrite (proj2 (nth_error_None _ _)), (proj2 (nth_error_None _ _)); auto; rewrite map_length; [exact Hi|rewrite seq_length; lia].
Qed.
Lemma reordered_legal order cats row : Permutation order (seq 0 (length cats)) -> legal_row cats row -> legal_row (pick order cats O) (pick order row None).
Proof.
  intros HP [HL HR]. destruct (order_below _ _ HP) as (L & B & Bn). split; [now rewrite !pick_length|]. intros i c Hc.
  assert (Hi : (i < length order)%nat) by (rewrite <- (pick_length order row None); apply nth_error_Some; congruence). apply (nth_error_nth _ _ None) in Hc. rewrite pick_nth in Hc by exact Hi. rewrite pick_nth by exact Hi.
  apply HR. rewrite <- Hc. apply nth_error_nth_lt. rewrite HL. apply Bn. lia.
Qed.
Lemma reordered_legal_data order cats data : Permutation order (seq 0 (length cats)) -> legal_data cats data -> legal_data (pick order cats O) (map (fun row => pick order row None) data).
Proof. intros HP HD. apply Forall_forall. intros r Hr. apply in_map_iff in Hr as (row & <- & Hrow). apply reordered_legal; [exact HP|]. unfold legal_data in HD. rewrite Forall_forall in HD. auto. Qed.

(** ** Values *)
Lemma jml_library m p thetas data : library_model m p -> Forall (fun t => length t = em_lv m) thetas -> length thetas = length data -> legal_data (em_cats m) data ->
  jml_loss m (Wide (em_items m) data) thetas = Ok (Some (Fin (- rsum (map (fun rt => ln (likelihood p (snd rt) (fst rt))) (combine data thetas))))).
Proof.
  intros Hm HF HL HD. change (jml_loss m (Wide (em_items m) data) thetas) with (scoring_loss m None (Wide (em_items m) data) thetas). rewrite (scoring_loss_value m p None thetas data Hm HF HL HD). do 4 f_equal.
  symmetry. apply rsum_index; [rewrite map_length, combine_length; lia|]. intros k Hk. rewrite nth_error_map, (nth_error_combine_some data thetas k (nth k data []) (nth k thetas [])) by (apply nth_error_nth_lt; lia).
  cbn [option_map fst snd]. unfold row_target, prior_term. now rewrite Rplus_0_r.
Qed.
Lemma mml_library m p points weights data : library_model m p -> points <> [] -> length weights = length points -> Forall (fun t => length t = em_lv m) points -> Forall (fun w => 0 < w) weights -> legal_data (em_cats m) data ->
  mml_loss m points (map (fun w => Some (Fin (ln w))) weights) (Wide (em_items m) data) = Ok (Some (Fin (- rsum (map (fun row => ln (marginal_likelihood p points weights row)) data)))).
Proof. exact (T_Est.C30_marginal_likelihood m p points weights data). Qed.
Lemma marginal_ext p p' points points' weights row row' : length points' = length points -> (forall q, (q < length points)%nat -> likelihood p' (nth q points' []) row' = likelihood p (nth q points []) row) ->
  marginal_likelihood p' points' weights row' = marginal_likelihood p points weights row.
Proof.
  intros HL H. unfold marginal_likelihood. revert points points' HL H. induction weights as [|w ws IH]; intros [|t ts] [|t' ts'] HL H; try discriminate; try reflexivity.
  cbn [zip_with]. change (w * likelihood p' t' row' + rsum (zip_with (fun w t => w * likelihood p' t row') ws ts') = w * likelihood p t row + rsum (zip_with (fun w t => w * likelihood p t row) ws ts)).
  rewrite (IH ts ts'); [|cbn in HL; lia|intros q Hq; apply (H (S q)); cbn; lia]. pose proof (H O ltac:(cbn; lia)) as H0. cbn [nth] in H0. now rewrite H0.
Qed.
Lemma map_pick {A B} (f : A -> B) order l x : map f (pick order l x) = pick order (map f l) (f x).
Proof. unfold pick. rewrite map_map. apply map_ext. intro j. symmetry. apply map_nth. Qed.
Lemma pick_in {A} order (l : list A) x y : Permutation order (seq 0 (length l)) -> In y (pick order l x) -> In y l.
Proof. intros HP Hy. destruct (order_below _ _ HP) as (_ & B & _). apply in_map_iff in Hy as (j & <- & Hj). apply nth_In. auto. Qed.
Lemma pick_default {A} order (l : list A) x y : Permutation order (seq 0 (length l)) -> pick order l x = pick order l y.
Proof. intros HP. destruct (order_below _ _ HP) as (_ & B & _). apply map_ext_in. intros j Hj. apply nth_indep. auto. Qed.

(** ** EAP: everything before the posterior depends only on the algorithm's state *)
Lemma eap_prefix lv mvn a points : (0 < match points with Some g => g | None => eap_default_points lv end)%nat ->
  (exists e, forall m data, em_lv m = lv -> eap_theta_scores mvn m a points data = Err e) \/
  (exists grid logpdf, (0 < length grid)%nat /\ Forall (fun t => length t = lv) grid /\
     forall m data, em_lv m = lv -> eap_theta_scores mvn m a points data = eap_scores m grid (map (fun t => Some (Fin (logpdf t))) grid) data).
Proof.
  intro Hg. set (g := match points with Some g => g | None => eap_default_points lv end) in *.
  destruct (4 <? lv)%nat eqn:E4. { left. exists ValueError. intros m data E. unfold eap_theta_scores. now rewrite E, E4. }
  assert (Hlin : forall lo hi, (0 < length (linspace lo hi g))%nat) by (intros; unfold linspace; rewrite map_length, seq_length; exact Hg).
  assert (Hreg : (0 < length (product (repeat (linspace (-3) 3 g) lv)))%nat /\ Forall (fun t => length t = lv) (product (repeat (linspace (-3) 3 g) lv))).
  { split.
    - assert (HI : In (repeat (-3) lv) (product (repeat (linspace (-3) 3 g) lv))).
      { apply in_product. clear - Hg. clearbody g. induction lv as [|n IH]; cbn [repeat]; constructor; auto. apply linspace_first. lia. }
      destruct (product _); [destruct HI|cbn; lia].
    - apply Forall_forall. intros t Ht. apply in_product in Ht. apply Forall2_len in Ht. now rewrite repeat_length in Ht. }
  destruct (al_training a) as [[scores|]|] eqn:Ea.
  - destruct scores as [|t0 ts] eqn:Es.
    + left. exists IndexError. intros m data E. unfold eap_theta_scores. now rewrite E, E4, Ea.
    + rewrite <- Es in *. assert (Hs : scores <> []) by (rewrite Es; discriminate). destruct (theta_grid lv scores g) as [grid|e] eqn:Eg; [|unfold theta_grid in Eg; rewrite Es in Eg; discriminate].
      destruct (mvn (covariance lv scores)) as [lp|e] eqn:Em.
      * right. exists grid, lp. split; [|split].
        -- rewrite (grid_length lv g scores grid Hs Eg). assert (g ^ lv <> 0)%nat; [|lia]. apply Nat.pow_nonzero. lia.
        -- apply Forall_forall. intros t Ht. now apply (in_grid lv g scores grid Hs Eg) in Ht as [H _].
        -- intros m data E. unfold eap_theta_scores. rewrite E, E4, Ea. fold g. rewrite Eg. cbn [bind fst snd]. now rewrite Em.
      * left. exists e. intros m data E. unfold eap_theta_scores. rewrite E, E4, Ea. fold g. rewrite Eg. cbn [bind fst snd]. now rewrite Em.
  - left. exists ValueError. intros m data E. unfold eap_theta_scores. now rewrite E, E4, Ea.
  - destruct (al_covariance a) as [[c|]|] eqn:Ec.
    + destruct (mvn (map (map Some) c)) as [lp|e] eqn:Em.
      * right. exists (product (repeat (linspace (-3) 3 g) lv)), lp. split; [tauto|]. split; [tauto|]. intros m data E. unfold eap_theta_scores. rewrite E, E4, Ea, Ec. fold g. cbn [bind fst snd]. now rewrite Em.
      * left. exists e. intros m data E. unfold eap_theta_scores. rewrite E, E4, Ea, Ec. fold g. cbn [bind fst snd]. now rewrite Em.
    + left. exists AttributeError. intros m data E. unfold eap_theta_scores. now rewrite E, E4, Ea, Ec.
    + destruct (mvn (map (map Some) (identity lv))) as [lp|e] eqn:Em.
      * right. exists (product (repeat (linspace (-3) 3 g) lv)), lp. split; [tauto|]. split; [tauto|]. intros m data E. unfold eap_theta_scores. rewrite E, E4, Ea, Ec. fold g. cbn [bind fst snd]. now rewrite Em.
      * left. exists e. intros m data E. unfold eap_theta_scores. rewrite E, E4, Ea, Ec. fold g. cbn [bind fst snd]. now rewrite Em.
Qed.
