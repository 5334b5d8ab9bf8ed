(** Positive functions on the boundary of a box; likelihoods are continuous. *)
From Verif Require Import Base BaseFacts RBase RFacts M_Data M_Logit M_Lik M_Est P_Logit P_Logit2 P_Est2 P_Opt1 P_Opt3 P_Max1 P_Max2 P_Max5 S_Logit S_Lik S_Est S_Opt.
Import List.
Local Open Scope R_scope.

Lemma nth_upd_R (d e : nat) x (t : list R) : (d < length t)%nat -> nth e (upd d x t) 0 = if (e =? d)%nat then x else nth e t 0.
Proof.
  intro Hd. destruct (Nat.eqb_spec e d) as [->|Hne]; [apply nth_error_nth; now apply nth_error_upd_eq|].
  destruct (nth_error t e) as [y|] eqn:E; [rewrite (nth_error_nth _ _ 0 E); apply nth_error_nth; rewrite nth_error_upd_neq by auto; exact E|].
  apply nth_error_None in E. rewrite !nth_overflow; [reflexivity|exact E|now rewrite upd_length].
Qed.
Lemma ucont_upd n f d a : (d < n)%nat -> ucont n f -> ucont n (fun t => f (upd d a t)).
Proof.
  intros Hd H B e He. destruct (H (Rmax B (Rabs a)) e He) as (r & Hr & Hx). exists r. split; [exact Hr|]. pose proof (Rmax_l B (Rabs a)). pose proof (Rmax_r B (Rabs a)).
  assert (I : forall t, inbox n B t -> inbox n (Rmax B (Rabs a)) (upd d a t)) by (intros t [L Hb]; split; [now rewrite upd_length|]; intros i Hi; rewrite nth_upd_R by lia; destruct (i =? d)%nat; [lra|specialize (Hb i Hi); lra]).
  intros t t' Ht Ht' HN. apply Hx; [now apply I|now apply I|]. intros i Hi. rewrite !nth_upd_R by (destruct Ht, Ht'; lia). destruct (i =? d)%nat; [rewrite Rminus_diag_eq, Rabs_R0 by reflexivity; exact Hr|now apply HN].
Qed.
Lemma upd_same d (t : list R) : (d < length t)%nat -> upd d (nth d t 0) t = t.
Proof. intro Hd. apply nth_error_ext. intro j. destruct (Nat.eq_dec d j) as [<-|Hne]; [|now rewrite nth_error_upd_neq]. rewrite nth_error_upd_eq by exact Hd. symmetry. now apply nth_error_nth_lt. Qed.
Lemma boundary_min n f : ucont n f -> (forall t, length t = n -> (exists d, (d < n)%nat /\ nth d t 0 <> 0) -> 0 < f t) -> exists r, 0 < r /\ forall t d, inbox n 1 t -> (d < n)%nat -> Rabs (nth d t 0) = 1 -> r <= f t.
Proof.
  intros Hf Hp. assert (G : forall k, (k <= n)%nat -> exists r, 0 < r /\ forall t d, inbox n 1 t -> (d < k)%nat -> Rabs (nth d t 0) = 1 -> r <= f t); [|destruct (G n ltac:(lia)) as (r & Hr & H); now exists r].
  induction k as [|k IH]; intro Hk; [exists 1; split; [lra|intros; lia]|]. destruct (IH ltac:(lia)) as (r & Hr & H).
  assert (F : forall a, Rabs a = 1 -> exists r, 0 < r /\ forall t, inbox n 1 t -> nth k t 0 = a -> r <= f t).
  { intros a Ha. destruct (box_maximum n (fun t => - f (upd k a t)) 1 ltac:(lra) (ucont_opp n _ (ucont_upd n f k a ltac:(lia) Hf))) as (t0 & [L0 _] & H0). exists (f (upd k a t0)). split.
    - apply Hp; [now rewrite upd_length|]. exists k. split; [lia|]. rewrite nth_upd_R, Nat.eqb_refl by lia. intro E. rewrite E, Rabs_R0 in Ha. lra.
    - intros t [L Hb] E. specialize (H0 t ltac:(now split)). rewrite <- E in H0 at 1. rewrite upd_same in H0 by lia. lra. }
  destruct (F 1 ltac:(apply Rabs_R1)) as (r1 & Hr1 & H1). destruct (F (-1) ltac:(unfold Rabs; destruct (Rcase_abs (-1)); lra)) as (r2 & Hr2 & H2).
  exists (Rmin r (Rmin r1 r2)). split; [repeat apply Rmin_glb_lt; assumption|]. intros t d Ht Hd E. pose proof (Rmin_l r (Rmin r1 r2)). pose proof (Rmin_r r (Rmin r1 r2)). pose proof (Rmin_l r1 r2). pose proof (Rmin_r r1 r2).
  destruct (Nat.eq_dec d k) as [->|Hne]; [|specialize (H t d Ht ltac:(lia) E); lra]. unfold Rabs in E. destruct (Rcase_abs (nth k t 0)); [specialize (H2 t Ht ltac:(lra)); lra|specialize (H1 t Ht E); lra].
Qed.
Lemma largest_entry n (t : list R) : (0 < n)%nat -> exists d, (d < n)%nat /\ forall e, (e < n)%nat -> Rabs (nth e t 0) <= Rabs (nth d t 0).
Proof.
  induction n as [|[|n] IH]; intro Hn; [lia|exists 0%nat; split; [lia|]; intros e He; replace e with 0%nat by lia; lra|]. destruct (IH ltac:(lia)) as (d & Hd & H). destruct (Rle_lt_dec (Rabs (nth (S n) t 0)) (Rabs (nth d t 0))) as [Hl|Hl].
  - exists d. split; [lia|]. intros e He. destruct (Nat.eq_dec e (S n)) as [->|]; [exact Hl|apply H; lia].
  - exists (S n). split; [lia|]. intros e He. destruct (Nat.eq_dec e (S n)) as [->|]; [lra|specialize (H e ltac:(lia)); lra].
Qed.
(** A vector scaled to the boundary of the unit box. *)
Lemma scaled_min n f : ucont n f -> (forall t, length t = n -> (exists d, (d < n)%nat /\ nth d t 0 <> 0) -> 0 < f t) -> exists r, 0 < r /\ forall t d, length t = n -> (d < n)%nat -> nth d t 0 <> 0 -> exists N, 0 < N /\ Rabs (nth d t 0) <= N /\ r <= f (map (fun x => x / N) t).
Proof.
  intros Hf Hp. destruct (boundary_min n f Hf Hp) as (r & Hr & H). exists r. split; [exact Hr|]. intros t d L Hd H0. destruct (largest_entry n t ltac:(lia)) as (e & He & Hm). exists (Rabs (nth e t 0)).
  pose proof (Hm d Hd) as Hde. pose proof (Rabs_pos_lt _ H0). assert (HN : 0 < Rabs (nth e t 0)) by lra. split; [exact HN|]. split; [exact Hde|].
  assert (E : forall i, (i < n)%nat -> nth i (map (fun x => x / Rabs (nth e t 0)) t) 0 = nth i t 0 / Rabs (nth e t 0)) by (intros i Hi; rewrite (nth_indep _ 0 (0 / Rabs (nth e t 0))) by (rewrite map_length; lia); apply (map_nth (fun x => x / Rabs (nth e t 0)))).
  apply (H _ e); [|exact He|].
  - split; [now rewrite map_length|]. intros i Hi. rewrite E by exact Hi. unfold Rdiv. rewrite Rabs_mult, Rabs_inv, Rabs_Rabsolu. apply (Rmult_le_reg_r (Rabs (nth e t 0))); [exact HN|]. rewrite Rmult_assoc, Rinv_l by lra. specialize (Hm i Hi). lra.
  - rewrite E by exact He. unfold Rdiv. rewrite Rabs_mult, Rabs_inv, Rabs_Rabsolu. apply Rinv_r. lra.
Qed.

(** ** Continuity of the likelihood *)
Lemma ucont_predictor n lv a : ucont n (fun t => predictor lv a t).
Proof. unfold predictor. apply (ucont_sumn n lv (fun d t => a d * nth d t 0)). intros d _. apply ucont_scal, ucont_nth. Qed.
Lemma ucont_logistic n f : ucont n f -> ucont n (fun t => logistic (f t)).
Proof. apply (ucont_comp n f logistic). apply (logistic_continuity (fun x => x)). intro x. apply derivable_continuous_pt, derivable_pt_id. Qed.
Lemma ucont_exp n f : ucont n f -> ucont n (fun t => exp (f t)).
Proof. apply (ucont_comp n f exp). intro x. apply derivable_continuous_pt, derivable_pt_exp. Qed.
Lemma ucont_minus n f g : ucont n f -> ucont n g -> ucont n (fun t => f t - g t).
Proof. intros Hf Hg. apply (ucont_ext n (fun t => f t + - g t)); [reflexivity|]. now apply ucont_plus, ucont_opp. Qed.
Lemma max_inv_continuity : continuity (fun y => / Rmax 1 y).
Proof.
  intro x. apply (continuity_pt_inv (fun y => Rmax 1 y)); [|pose proof (Rmax_l 1 x); lra]. apply (continuity_ext (fun y => / 2 * (1 + y + Rabs (1 - y)))).
  - intro y. unfold Rmax, Rabs. destruct (Rle_dec 1 y); destruct (Rcase_abs (1 - y)); lra.
  - intro y. apply (continuity_pt_scal (fun y => 1 + y + Rabs (1 - y))). apply (continuity_pt_plus (fun y => 1 + y) (fun y => Rabs (1 - y))); [apply (continuity_ext (fun y => 1 + y * 1)); [intro; ring|apply affine_continuity]|].
    apply (continuity_pt_comp (fun y => 1 - y) Rabs); [apply (continuity_ext (fun y => 1 + y * (- 1))); [intro; ring|apply affine_continuity]|apply Rcontinuity_abs].
Qed.
Lemma ucont_softmax n K (z : list R -> nat -> R) k : (k < K)%nat -> (forall j, (j < K)%nat -> ucont n (fun t => z t j)) -> ucont n (fun t => category_probability K (z t) k).
Proof.
  intros Hk Hz. apply (ucont_ext n (fun t => / Rmax 1 (sumn K (fun j => exp (z t j - z t k))))).
  - intros t _. rewrite cp_inverse by exact Hk. f_equal. apply Rmax_right. replace 1 with (exp (z t k - z t k)) by (replace (z t k - z t k) with 0 by ring; apply exp_0).
    apply (sumn_term_le K (fun j => exp (z t j - z t k)) k); [|exact Hk]. intros; left; apply exp_pos.
  - apply (ucont_comp n (fun t => sumn K (fun j => exp (z t j - z t k))) (fun y => / Rmax 1 y)); [exact max_inv_continuity|]. apply (ucont_sumn n K (fun j t => exp (z t j - z t k))). intros j Hj. apply ucont_exp, ucont_minus; now apply Hz.
Qed.
Lemma ucont_geq n K (z : list R -> nat -> R) k : (forall j, ucont n (fun t => z t j)) -> ucont n (fun t => geq_probability K (z t) k).
Proof. intro Hz. unfold geq_probability. destruct (k =? 0)%nat; [apply ucont_const|]. destruct (k <? K)%nat; [now apply ucont_logistic|apply ucont_const]. Qed.
Lemma library_ucont m p n i k : library_model m p -> (k < nth i (em_cats m) O)%nat -> ucont n (fun t => p t i k).
Proof.
  intros [nanl o Ho|nanl o Ho|nanl o Ho|nanl o Ho|nanl o Ho Hi Hd|nanl o Ho] Hk.
  - unfold opl_p. cbv zeta. assert (C : ucont n (fun t => logistic (nth 0 t 0 + nth i (opl_b o) 0))) by (apply ucont_logistic, ucont_plus; [apply ucont_nth|apply ucont_const]). destruct (k =? 1)%nat; [exact C|apply ucont_minus; [apply ucont_const|exact C]].
  - unfold tpl_p. cbv zeta. set (a := slope _ _ _). assert (C : ucont n (fun t => logistic (predictor (tpl_lv o) a t + nth i (tpl_b o) 0))) by (apply ucont_logistic, ucont_plus; [apply ucont_predictor|apply ucont_const]). destruct (k =? 1)%nat; [exact C|apply ucont_minus; [apply ucont_const|exact C]].
  - unfold thpl_p. cbv zeta. set (a := slope _ _ _). set (g := logistic (nth i (thpl_g o) 0)). assert (C : ucont n (fun t => g + (1 - g) * logistic (predictor (thpl_lv o) a t + nth i (thpl_b o) 0))) by (apply ucont_plus; [apply ucont_const|]; apply ucont_scal, ucont_logistic, ucont_plus; [apply ucont_predictor|apply ucont_const]).
    destruct (k =? 1)%nat; [exact C|apply ucont_minus; [apply ucont_const|exact C]].
  - unfold gpc_p. apply (ucont_softmax n _ (fun t k => INR k * predictor (p_lv o) (slope (p_free o) (p_w o) i) t + intercept (p_cats o) (p_b o) i k)); [exact Hk|]. intros j _. apply ucont_plus; [|apply ucont_const]. apply ucont_scal, ucont_predictor.
  - unfold grm_p. cbv zeta. apply ucont_minus; apply (ucont_geq n _ (fun t k => predictor (p_lv o) (slope (p_free o) (p_w o) i) t + intercept (p_cats o) (p_b o) i k)); intro j; apply ucont_plus; [apply ucont_predictor|apply ucont_const|apply ucont_predictor|apply ucont_const].
  - unfold nrm_p. apply (ucont_softmax n _ (fun t k => predictor (nrm_lv o) (nrm_slope o i k) t + nrm_intercept o i k)); [exact Hk|]. intros j _. apply ucont_plus; [apply ucont_predictor|apply ucont_const].
Qed.
Lemma ucont_rprod n (g : list R -> nat -> cell -> R) row : (forall i c, nth_error row i = Some c -> ucont n (fun t => g t i c)) -> ucont n (fun t => rprod (mapi (g t) row)).
Proof.
  revert g; induction row as [|c row IH]; intros g H; [exact (ucont_const n 1)|]. apply (ucont_ext n (fun t => g t 0%nat c * rprod (mapi (fun i => g t (S i)) row))); [intros t _; now rewrite mapi_cons|].
  apply ucont_mult; [exact (H 0%nat c eq_refl)|]. apply (IH (fun t i => g t (S i))). intros i x Hi. exact (H (S i) x Hi).
Qed.
Lemma likelihood_ucont m p n row : library_model m p -> legal_row (em_cats m) row -> ucont n (fun t => likelihood p t row).
Proof.
  intros Hm HL. unfold likelihood. apply (ucont_rprod n (fun t i c => match answer c with None => 1 | Some k => p t i k end)). intros i c Hc. destruct (answer c) as [k|] eqn:E; [|apply ucont_const].
  apply (library_ucont m p n i k Hm). apply (legal_answer (em_cats m) row i k HL). now rewrite (nth_error_nth _ _ None Hc).
Qed.
Lemma cp_le_1 K z k : (k < K)%nat -> category_probability K z k <= 1.
Proof. intro Hk. pose proof (cp_le_ratio K z k k Hk Hk) as H. replace (z k - z k) with 0 in H by ring. rewrite exp_0 in H. exact H. Qed.
Lemma library_le_1 m p t i k : library_model m p -> (k < nth i (em_cats m) O)%nat -> p t i k <= 1.
Proof.
  intros Hm Hk. pose proof (library_pos m p Hm t i k Hk) as Hp. destruct Hm as [nanl o Ho|nanl o Ho|nanl o Ho|nanl o Ho|nanl o Ho Hi Hd|nanl o Ho].
  - unfold opl_p. cbv zeta. pose proof (logistic_bounds (nth 0 t 0 + nth i (opl_b o) 0)). destruct (k =? 1)%nat; lra.
  - unfold tpl_p. cbv zeta. match goal with |- context [logistic ?u] => pose proof (logistic_bounds u) end. destruct (k =? 1)%nat; lra.
  - unfold thpl_p in *. cbv zeta in *. pose proof (logistic_bounds (nth i (thpl_g o) 0)). match goal with |- context [logistic (?u + ?v)] => pose proof (logistic_bounds (u + v)) end. destruct (k =? 1)%nat; nra.
  - unfold gpc_p. now apply cp_le_1.
  - unfold grm_p, geq_probability. cbv zeta. cbn [Nat.eqb]. repeat match goal with |- context [logistic ?u] => pose proof (logistic_bounds u); generalize dependent (logistic u); intros end. destruct (k =? 0)%nat, (k <? nth i (p_cats o) O)%nat, (S k <? nth i (p_cats o) O)%nat; lra.
  - unfold nrm_p. now apply cp_le_1.
Qed.
Lemma rprod_le_1 l : Forall (fun x => 0 < x <= 1) l -> 0 < rprod l <= 1.
Proof. induction 1 as [|x l Hx _ IH]; cbn [rprod]; [lra|nra]. Qed.
Lemma likelihood_le_1 m p t row : library_model m p -> legal_row (em_cats m) row -> 0 < likelihood p t row <= 1.
Proof.
  intros Hm HL. unfold likelihood. apply rprod_le_1. apply Forall_forall. intros x Hx. apply In_nth_error in Hx as [i Hi]. rewrite nth_error_mapi in Hi. destruct (nth_error row i) as [c|] eqn:Ec; [|discriminate]. injection Hi as <-.
  destruct (answer c) as [k|] eqn:E; [|lra]. assert (Hk : (k < nth i (em_cats m) O)%nat) by (apply (legal_answer (em_cats m) row i k HL); now rewrite (nth_error_nth _ _ None Ec)). split; [now apply (library_pos m p)|now apply (library_le_1 m p)].
Qed.
