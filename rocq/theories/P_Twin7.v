(** Lemmas: the loss has a gradient. *)
From Verif Require Import Base BaseFacts RBase RFacts M_Data M_CV M_Logit M_Lik M_Est M_Stat M_Train M_Mix M_Quad M_Adam P_Data P_Logit P_Lik2 P_Est1 P_Est2 P_Sym1 P_Sym2 P_Sym3 P_Twin1 P_Twin2 P_Twin3 P_Twin4 P_Twin6 S_Logit S_Lik S_Est S_Sym S_Twin.
Import List.
Local Open Scope R_scope.

Definition smooth (f : R -> R) := forall t, derivable_pt f t.
Lemma s_ext f g : (forall t, f t = g t) -> smooth g -> smooth f.
Proof. intros H S t. destruct (S t) as [l Hl]. exists l. apply (derivable_pt_lim_ext g); [intro u; now symmetry|exact Hl]. Qed.
Lemma s_const c : smooth (fun _ => c).
Proof. intro t. apply (derivable_pt_const c). Qed.
Lemma s_id : smooth (fun t => t).
Proof. intro t. apply derivable_pt_id. Qed.
Lemma s_plus f g : smooth f -> smooth g -> smooth (fun t => f t + g t).
Proof. intros F G t. exact (derivable_pt_plus f g t (F t) (G t)). Qed.
Lemma s_minus f g : smooth f -> smooth g -> smooth (fun t => f t - g t).
Proof. intros F G t. exact (derivable_pt_minus f g t (F t) (G t)). Qed.
Lemma s_opp f : smooth f -> smooth (fun t => - f t).
Proof. intros F t. exact (derivable_pt_opp f t (F t)). Qed.
Lemma s_mult f g : smooth f -> smooth g -> smooth (fun t => f t * g t).
Proof. intros F G t. exact (derivable_pt_mult f g t (F t) (G t)). Qed.
Lemma s_div f g : smooth f -> smooth g -> (forall t, g t <> 0) -> smooth (fun t => f t / g t).
Proof. intros F G N t. exact (derivable_pt_div f g t (F t) (G t) (N t)). Qed.
Lemma s_exp f : smooth f -> smooth (fun t => exp (f t)).
Proof. intros F t. exact (derivable_pt_comp f exp t (F t) (derivable_pt_exp (f t))). Qed.
Lemma s_ln f : smooth f -> (forall t, 0 < f t) -> smooth (fun t => ln (f t)).
Proof. intros F P t. apply (derivable_pt_comp f ln t (F t)). exists (/ f t). apply derivable_pt_lim_ln, P. Qed.
Lemma s_logistic f : smooth f -> smooth (fun t => logistic (f t)).
Proof.
  intros F. apply (s_ext _ (fun t => 1 / (1 + exp (- f t)))); [intro t; unfold logistic, Rdiv; now rewrite Rmult_1_l|].
  apply s_div; [apply s_const|apply s_plus; [apply s_const|apply s_exp, s_opp, F]|]. intro t. pose proof (exp_pos (- f t)). lra.
Qed.
Lemma s_sumn n (f : nat -> R -> R) : (forall k, smooth (f k)) -> smooth (fun t => sumn n (fun k => f k t)).
Proof. intro H. induction n as [|n IH]; [exact (s_const 0)|]. cbn [sumn]. now apply s_plus. Qed.
Lemma s_if (b : bool) f g : smooth f -> smooth g -> smooth (fun t => if b then f t else g t).
Proof. intros F G. destruct b; assumption. Qed.

Lemma s_response x K (eta : R -> R) (b : R -> nat -> R) (c : R -> R) k : smooth eta -> (forall j, smooth (fun t => b t j)) -> smooth c -> smooth (fun t => response x K (eta t) (b t) (c t) k).
Proof.
  intros E I G. assert (L : smooth (fun t => logistic (eta t + b t O))) by (apply s_logistic; exact (s_plus eta (fun t => b t O) E (I O))).
  assert (X : forall j, smooth (fun t => exp (INR j * eta t + b t j))) by (intro j; apply s_exp; apply (s_plus (fun t => INR j * eta t) (fun t => b t j)); [apply s_mult; [apply s_const|exact E]|apply I]).
  assert (P : smooth (fun t => category_probability K (fun k => INR k * eta t + b t k) k)).
  { unfold category_probability. destruct K as [|K].
    - apply (s_mult (fun t => exp (INR k * eta t + b t k)) (fun _ => / 0)); [apply X|apply s_const].
    - apply (s_div (fun t => exp (INR k * eta t + b t k)) (fun t => sumn (S K) (fun j => exp (INR j * eta t + b t j)))); [apply X|apply (s_sumn (S K) (fun j t => exp (INR j * eta t + b t j))); exact X|].
      intro t. apply Rgt_not_eq. apply sumn_pos; [lia|]. intros j _. apply exp_pos. }
  assert (Q : smooth (fun t => logistic (c t) + (1 - logistic (c t)) * logistic (eta t + b t O))) by (apply s_plus; [now apply s_logistic|apply s_mult; [apply s_minus; [apply s_const|now apply s_logistic]|exact L]]).
  destruct x; cbn [response]; cbv zeta; try exact P; (apply s_if; [assumption|apply s_minus; [apply s_const|assumption]]).
Qed.
(** An entry of a list whose [u]-th entry moves. *)
Lemma s_nth u p j : (u < length p)%nat -> smooth (fun t => nth j (upd u t p) 0).
Proof. intro H. destruct (Nat.eqb u j) eqn:E; [apply (s_ext _ (fun t => t)); [intro t; rewrite nth_upd, E by exact H; reflexivity|apply s_id]|apply (s_ext _ (fun _ => nth j p 0)); [intro t; rewrite nth_upd, E by exact H; reflexivity|apply s_const]]. Qed.
Section Smooth.
Variables (x : irt) (p : list R) (u : nat).
Hypothesis plain : plain_model x.
Hypothesis wf : well_formed x.
Hypothesis len : length p = length (parameters x).
Hypothesis Hu : (u < length p)%nat.
Lemma s_slope i d : smooth (fun t => slope_of (with_parameters x (upd u t p)) i d).
Proof.
  assert (D : {has_slope x i d} + {~ has_slope x i d}) by (destruct x; cbn [has_slope]; try (right; exact (fun H => H)); match goal with |- {?b = true} + {_} => destruct b; [now left|right; discriminate] end). destruct D as [H|H].
  - apply (s_ext _ (fun t => nth (slope_at x i d) (upd u t p) 0)); [|now apply s_nth]. intro t. apply slope_read; try assumption. now rewrite upd_length.
  - apply (s_ext _ (fun t => match x with Opl _ => 1 | _ => 0 end)); [|apply s_const]. intro t. now apply no_slope.
Qed.
Lemma s_intercept i k : smooth (fun t => intercept_of (with_parameters x (upd u t p)) i k).
Proof.
  destruct x as [m|m|m|m|m|m]; cbn [plain_model] in plain; try contradiction; cbn [with_parameters intercept_of opl_b tpl_b thpl_b p_cats p_b].
  - now apply s_nth.
  - apply (s_ext _ (fun t => nth (length (tpl_w m) + i) (upd u t p) 0)); [intro t; apply nth_rest|now apply s_nth].
  - destruct (lt_dec i (length (thpl_b m))) as [H|H].
    + apply (s_ext _ (fun t => nth (length (thpl_w m) + i) (upd u t p) 0)); [intro t; rewrite nth_first by exact H; apply nth_rest|now apply s_nth].
    + apply (s_ext _ (fun _ => 0)); [intro t; apply nth_overflow; rewrite firstn_length; lia|apply s_const].
  - unfold intercept. apply s_if; [|apply s_const]. apply (s_ext _ (fun t => nth (length (p_w m) + (list_sum (firstn i (map pred (p_cats m))) + (k - 1))) (upd u t p) 0)); [intro t; apply nth_rest|now apply s_nth].
Qed.
Lemma s_guessing i : smooth (fun t => guessing_of (with_parameters x (upd u t p)) i).
Proof.
  destruct x as [m|m|m|m|m|m]; cbn [plain_model] in plain; try contradiction; cbn [with_parameters guessing_of thpl_g]; try apply s_const.
  apply (s_ext _ (fun t => nth (length (thpl_w m) + (length (thpl_b m) + i)) (upd u t p) 0)); [intro t; now rewrite !nth_rest|now apply s_nth].
Qed.
Lemma s_chance th i k : smooth (fun t => chances (with_parameters x (upd u t p)) th i k).
Proof.
  apply (s_ext _ (fun t => response x (categories_of x i) (eta_of (with_parameters x (upd u t p)) i th) (intercept_of (with_parameters x (upd u t p)) i) (guessing_of (with_parameters x (upd u t p)) i) k)).
  { intro t. rewrite chances_response by now apply plain_with. now rewrite response_with, categories_with. }
  assert (E : smooth (fun t => eta_of (with_parameters x (upd u t p)) i th)).
  { apply (s_ext _ (fun t => match x with Opl _ => nth 0 th 0 | _ => predictor (latents x) (slope_of (with_parameters x (upd u t p)) i) th end)); [intro t; destruct x; reflexivity|]. assert (P : smooth (fun t => predictor (latents x) (slope_of (with_parameters x (upd u t p)) i) th)) by (unfold predictor; apply s_sumn; intro d; apply s_mult; [apply s_slope|apply s_const]). destruct x; try exact P. exact (s_const (nth 0 th 0)). }
  exact (s_response x (categories_of x i) (fun t => eta_of (with_parameters x (upd u t p)) i th) (fun t => intercept_of (with_parameters x (upd u t p)) i) (fun t => guessing_of (with_parameters x (upd u t p)) i) k E (s_intercept i) (s_guessing i)).
Qed.
Lemma s_likelihood th row : smooth (fun t => likelihood (chances (with_parameters x (upd u t p))) th row).
Proof.
  unfold likelihood. assert (G : forall row i0, smooth (fun t => rprod (mapi_from i0 (fun i c => match answer c with None => 1 | Some k => chances (with_parameters x (upd u t p)) th i k end) row))); [|apply G].
  clear row. induction row as [|c row IH]; intro i0; [exact (s_const 1)|]. cbn [mapi_from rprod]. apply s_mult; [|apply IH]. destruct (answer c); [apply s_chance|apply s_const].
Qed.
Lemma s_marginal points ws row : smooth (fun t => marginal_likelihood (chances (with_parameters x (upd u t p))) points ws row).
Proof.
  unfold marginal_likelihood. revert points; induction ws as [|w ws IH]; intros [|th points]; try exact (s_const 0). cbn [zip_with]. apply (s_ext _ (fun t => w * likelihood (chances (with_parameters x (upd u t p))) th row + rsum (zip_with (fun w t0 => w * likelihood (chances (with_parameters x (upd u t p))) t0 row) ws points))); [reflexivity|]. apply s_plus; [apply s_mult; [apply s_const|apply s_likelihood]|apply IH].
Qed.
End Smooth.
Lemma marginal_positive (nanl : Z) x points ws row : well_formed x -> points <> [] -> length ws = length points -> Forall (fun w => 0 < w) ws -> legal_row (cats_of x) row -> 0 < marginal_likelihood (chances x) points ws row.
Proof.
  intros W HN HL HP HR. unfold marginal_likelihood. assert (L : forall t, 0 < likelihood (chances x) t row) by (intro t; apply (library_likelihood (model_of nanl x)); [now apply model_library|now rewrite model_cats]).
  destruct points as [|t points]; [congruence|]. destruct ws as [|w ws]; [discriminate|]. cbn [zip_with]. change (0 < w * likelihood (chances x) t row + rsum (zip_with (fun w t => w * likelihood (chances x) t row) ws points)). pose proof (Forall_inv HP) as H1. pose proof (Forall_inv_tail HP) as H2. apply Rplus_lt_le_0_compat; [now apply Rmult_lt_0_compat|].
  clear - L H2. revert points; induction H2 as [|w ws Hw _ IH]; intros [|t points]; try (cbn; lra). cbn [zip_with]. change (0 <= w * likelihood (chances x) t row + rsum (zip_with (fun w t => w * likelihood (chances x) t row) ws points)). pose proof (Rmult_lt_0_compat _ _ Hw (L t)). specialize (IH points). lra.
Qed.
Lemma s_loss (nanl : Z) x points ws data p u : ready x points ws data -> length p = length (parameters x) -> (u < length p)%nat -> smooth (fun t => minus_log points ws data (with_parameters x (upd u t p))).
Proof.
  intros [H1 H2 H3 H4 H5 H6 H7] HL Hu. unfold minus_log. apply s_opp. clear H5. induction data as [|row data IH]; [exact (s_const 0)|]. unfold legal_data in H7.
  apply (s_ext _ (fun t => ln (marginal_likelihood (chances (with_parameters x (upd u t p))) points ws row) + rsum (map (fun row => ln (marginal_likelihood (chances (with_parameters x (upd u t p))) points ws row)) data))); [reflexivity|].
  apply s_plus; [|apply IH; exact (Forall_inv_tail H7)]. apply s_ln; [now apply s_marginal|]. intro t. apply (marginal_positive nanl); try assumption; [apply with_well_formed; try assumption; now rewrite upd_length|]. rewrite with_cats. exact (Forall_inv H7).
Qed.
Lemma gradient_exists nanl x points ws data : ready x points ws data ->
  exists g, gradient (length (parameters x)) (fun p => number (step_loss (fun p => model_of nanl (with_parameters x p)) points (logs ws) (Wide (length (cats_of x)) data) p)) g.
Proof.
  intro HR. set (n := length (parameters x)). set (G := fun p => minus_log points ws data (with_parameters x p)).
  assert (D : forall p u, length p = n -> (u < n)%nat -> derivable_pt (fun t => G (upd u t p)) (nth u p 0)) by (intros p u HL Hu; apply (s_loss nanl); [exact HR|exact HL|rewrite HL; exact Hu]).
  exists (fun p => map (fun u => match Nat.eq_dec (length p) n, lt_dec u n with left HL, left Hu => derive_pt (fun t => G (upd u t p)) (nth u p 0) (D p u HL Hu) | _, _ => 0 end) (seq 0 n)).
  intros p HL. split; [now rewrite map_length, seq_length|]. intros k Hk. rewrite (nth_map_seq (fun u => match Nat.eq_dec (length p) n, lt_dec u n with left HL, left Hu => derive_pt (fun t => G (upd u t p)) (nth u p 0) (D p u HL Hu) | _, _ => 0 end) n k 0 Hk).
  destruct (Nat.eq_dec (length p) n) as [E1|]; [|contradiction]. destruct (lt_dec k n) as [E2|]; [|contradiction]. apply (derivable_pt_lim_ext (fun t => G (upd k t p))); [|exact (proj2_sig (D p k E1 E2))].
  intro t. unfold G. symmetry. apply loss_number; [exact HR|]. now rewrite upd_length.
Qed.
