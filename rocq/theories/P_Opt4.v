(** Normal priors, and the loss as a function of all scores. *)
From Verif Require Import Base BaseFacts RBase RFacts M_Data M_Logit M_Lik M_Est P_Logit P_Lik5 P_Spline4 P_Est1 P_Est2 S_Logit S_Lik S_Est M_Opt S_Opt P_Opt1 P_Opt2 P_Opt3.
Import List.
Local Open Scope R_scope.

(** ** Normal priors *)
Lemma nonzero_dec n (x : nat -> R) : (exists d, (d < n)%nat /\ x d <> 0) \/ forall d, (d < n)%nat -> x d = 0.
Proof.
  induction n as [|n [(d & Hd & Hx)|IH]]; [right; lia|left; exists d; split; [lia|exact Hx]|].
  destruct (Req_EM_T (x n) 0) as [E|E]; [right|left; exists n; split; [lia|exact E]]. intros d Hd. destruct (Nat.eq_dec d n) as [->|Hne]; [exact E|apply IH; lia].
Qed.
Section Prior.
  Variables (lv : nat) (c : R) (P : nat -> nat -> R).
  Hypothesis HS : forall d e, (d < lv)%nat -> (e < lv)%nat -> P d e = P e d.
  Definition prior_gradient (t : list R) (d : nat) : R := - sumn lv (fun e => P d e * nth e t 0).
  Lemma prior_expand t t' : normal_prior lv c P t' = normal_prior lv c P t + sumn lv (fun d => prior_gradient t d * (nth d t' 0 - nth d t 0)) - quad lv P (fun d => nth d t' 0 - nth d t 0) / 2.
  Proof using HS.
    unfold normal_prior, prior_gradient. set (x := fun d => nth d t 0). set (y := fun d => nth d t' 0).
    change (c - quad lv P y / 2 = c - quad lv P x / 2 + sumn lv (fun d => - sumn lv (fun e => P d e * x e) * (y d - x d)) - quad lv P (fun d => y d - x d) / 2).
    assert (E : quad lv P y = quad lv P x + 2 * sumn lv (fun d => sumn lv (fun e => P d e * x e) * (y d - x d)) + quad lv P (fun d => y d - x d)).
    { set (w := fun d => y d - x d). assert (E1 : quad lv P y = quad lv P x + sumn lv (fun d => sumn lv (fun e => P d e * x d * w e)) + sumn lv (fun d => sumn lv (fun e => P d e * w d * x e)) + quad lv P w).
      { unfold quad. rewrite <- !sumn_plus. apply sumn_ext. intros d Hd. rewrite <- !sumn_plus. apply sumn_ext. intros e He. unfold w. ring. }
      assert (E2 : sumn lv (fun d => sumn lv (fun e => P d e * w d * x e)) = sumn lv (fun d => sumn lv (fun e => P d e * x e) * w d)).
      { apply sumn_ext. intros d Hd. rewrite <- sumn_scal_r. apply sumn_ext. intros; ring. }
      assert (E3 : sumn lv (fun d => sumn lv (fun e => P d e * x d * w e)) = sumn lv (fun d => sumn lv (fun e => P d e * x e) * w d)).
      { rewrite sumn_swap. apply sumn_ext. intros d Hd. rewrite <- sumn_scal_r. apply sumn_ext. intros e He. rewrite (HS e d He Hd). ring. }
      rewrite E1, E2, E3. unfold w. ring. }
    rewrite E. rewrite (sumn_ext lv (fun d => - sumn lv (fun e => P d e * x e) * (y d - x d)) (fun d => - (sumn lv (fun e => P d e * x e) * (y d - x d)))) by (intros; ring). rewrite sumn_opp. field.
  Qed.
  Local Lemma quad_one d a : (d < lv)%nat -> quad lv P (fun e => if (e =? d)%nat then a else 0) = P d d * a * a.
  Proof using Type.
    intro Hd. unfold quad. rewrite (sumn_single lv d); [|exact Hd|].
    - rewrite (sumn_single lv d); [now rewrite Nat.eqb_refl|exact Hd|]. intros e _ He. destruct (Nat.eqb_spec e d); [contradiction|ring].
    - intros e _ He. rewrite (sumn_ext lv _ (fun _ => 0)); [apply sumn_0|]. intros j _. destruct (Nat.eqb_spec e d); [contradiction|ring].
  Qed.
  Local Lemma quad_ext x y : (forall d, (d < lv)%nat -> x d = y d) -> quad lv P x = quad lv P y.
  Proof using Type. intro H. unfold quad. apply sumn_ext. intros d Hd. apply sumn_ext. intros e He. now rewrite !H. Qed.
  Lemma prior_partial t d : length t = lv -> (d < lv)%nat -> partial_is (normal_prior lv c P) t d (prior_gradient t d).
  Proof using HS.
    intros Ht Hd. unfold partial_is. set (x0 := nth d t 0).
    apply (derivable_ext (fun x => (normal_prior lv c P t - prior_gradient t d * x0 - P d d * x0 * x0 / 2) + ((prior_gradient t d + P d d * x0) * x + (- (P d d / 2)) * (x * x)))).
    { intro x. rewrite (prior_expand t (upd d x t)).
      assert (U : forall e, (e < lv)%nat -> nth e (upd d x t) 0 - nth e t 0 = if (e =? d)%nat then x - x0 else 0).
      { intros e He. destruct (Nat.eqb_spec e d) as [->|Hne]; [now rewrite (nth_error_nth _ d 0 (nth_error_upd_eq d x t ltac:(lia)))|].
        rewrite (nth_error_nth (upd d x t) e 0 (x := nth e t 0)); [ring|]. rewrite nth_error_upd_neq by auto. apply nth_error_nth_lt. lia. }
      rewrite (quad_ext _ (fun e => if (e =? d)%nat then x - x0 else 0)) by (intros; now apply U). rewrite quad_one by exact Hd.
      rewrite (sumn_single lv d); [rewrite U, Nat.eqb_refl by exact Hd; field|exact Hd|]. intros e He Hne. rewrite U by exact He. destruct (Nat.eqb_spec e d); [contradiction|ring]. }
    assert (D2 : derivable_pt_lim (fun x => x * x) x0 (x0 + x0)).
    { pose proof (derivable_pt_lim_mult id id x0 1 1 (derivable_pt_lim_id x0) (derivable_pt_lim_id x0)) as H. unfold mult_fct, id in H. replace (x0 + x0) with (1 * x0 + x0 * 1) by ring. exact H. }
    pose proof (derivable_pt_lim_plus _ _ _ _ _ (derivable_pt_lim_const (normal_prior lv c P t - prior_gradient t d * x0 - P d d * x0 * x0 / 2) x0)
      (derivable_pt_lim_plus _ _ _ _ _ (derivable_pt_lim_scal id (prior_gradient t d + P d d * x0) x0 1 (derivable_pt_lim_id x0)) (derivable_pt_lim_scal _ (- (P d d / 2)) x0 _ D2))) as H.
    assert (EG : 0 + ((prior_gradient t d + P d d * x0) * 1 + - (P d d / 2) * (x0 + x0)) = prior_gradient t d) by field. rewrite EG in H. exact H.
  Qed.
  Lemma prior_touches t : (forall x, (exists d, (d < lv)%nat /\ x d <> 0) -> 0 < quad lv P x) -> length t = lv -> touches lv (normal_prior lv c P) t (fun t' => length t' = lv -> t' = t).
  Proof using HS.
    intros HP Ht. assert (NN : forall x, 0 <= quad lv P x /\ (quad lv P x = 0 -> forall d, (d < lv)%nat -> x d = 0)).
    { intro x. destruct (nonzero_dec lv x) as [H|Z].
      - pose proof (HP x H). split; [lra|]. intro; lra.
      - split; [|auto]. rewrite (quad_ext x (fun _ => 0)) by auto. unfold quad. rewrite (sumn_ext lv _ (fun _ => 0)); [rewrite sumn_0; lra|]. intros d _. rewrite (sumn_ext lv _ (fun _ => 0)); [apply sumn_0|]. intros; ring. }
    exists (prior_gradient t). split; [split|].
    - intros d Hd. now apply prior_partial.
    - intros t' _. unfold plane. rewrite (prior_expand t t'). pose proof (proj1 (NN (fun d => nth d t' 0 - nth d t 0))). lra.
    - intros t' Ht' E Hl. unfold plane in E. rewrite (prior_expand t t') in E. pose proof (proj2 (NN (fun d => nth d t' 0 - nth d t 0)) ltac:(lra)) as Z.
      apply nth_error_ext. intro d. destruct (Nat.lt_ge_cases d lv) as [Hd|Hd].
      + rewrite (nth_error_nth_lt t' d 0), (nth_error_nth_lt t d 0) by lia. f_equal. specialize (Z d Hd). cbv beta in Z. lra.
      + rewrite (proj2 (nth_error_None t' d)), (proj2 (nth_error_None t d)) by lia. reflexivity.
  Qed.
End Prior.

(** ** All respondents *)
Section Rows.
  Variables (lv : nat) (F : nat -> list R -> R) (N : nat).
  Definition total (thetas : list (list R)) : R := sumn N (fun n => F n (nth n thetas [])).
  Definition shaped (thetas : list (list R)) : Prop := length thetas = N /\ Forall (fun t => length t = lv) thetas.
  Lemma shaped_row thetas n : shaped thetas -> (n < N)%nat -> length (nth n thetas []) = lv.
  Proof using Type. intros [HL HF] Hn. rewrite Forall_forall in HF. apply HF, nth_In. lia. Qed.
  Lemma upd_row thetas n t n' : shaped thetas -> (n < N)%nat -> nth n' (upd n t thetas) [] = if (n' =? n)%nat then t else nth n' thetas [].
  Proof using Type.
    intros [HL _] Hn. destruct (Nat.eqb_spec n' n) as [->|Hne].
    - apply nth_error_nth. apply nth_error_upd_eq. lia.
    - destruct (nth_error thetas n') as [x|] eqn:E.
      + rewrite (nth_error_nth thetas n' [] E). apply nth_error_nth. rewrite nth_error_upd_neq by auto. exact E.
      + rewrite (nth_overflow thetas) by (now apply nth_error_None). apply nth_overflow. rewrite upd_length. now apply nth_error_None.
  Qed.
  Lemma total_upd thetas n t : shaped thetas -> (n < N)%nat -> total (upd n t thetas) = total thetas - F n (nth n thetas []) + F n t.
  Proof using Type.
    intros HT Hn. unfold total. assert (E : sumn N (fun n' => F n' (nth n' (upd n t thetas) [])) - sumn N (fun n' => F n' (nth n' thetas [])) = F n t - F n (nth n thetas [])); [|lra].
    rewrite <- sumn_minus. rewrite (sumn_single N n); [|exact Hn|].
    - rewrite upd_row by assumption. now rewrite Nat.eqb_refl.
    - intros n' Hn' Hne. rewrite upd_row by assumption. destruct (Nat.eqb_spec n' n); [contradiction|ring].
  Qed.
  Lemma upd_shaped thetas n t : shaped thetas -> length t = lv -> shaped (upd n t thetas).
  Proof using Type.
    intros [HL HF] Ht. split; [now rewrite upd_length|]. apply Forall_forall. intros x Hx. apply In_nth_error in Hx as [i Hi]. rewrite Forall_forall in HF.
    destruct (Nat.eq_dec n i) as [<-|Hne].
    - assert (n < length thetas)%nat by (rewrite <- (upd_length n t thetas); apply nth_error_Some; congruence). rewrite nth_error_upd_eq in Hi by assumption. congruence.
    - rewrite nth_error_upd_neq in Hi by exact Hne. apply HF. eapply nth_error_In; eauto.
  Qed.
  (** Best total score exactly when every respondent's score is best. *)
  Lemma total_best thetas : shaped thetas -> ((forall thetas', shaped thetas' -> total thetas' <= total thetas) <-> forall n, (n < N)%nat -> maximum lv (F n) (nth n thetas [])).
  Proof using Type.
    intro HT. split.
    - intros H n Hn t' Ht'. specialize (H (upd n t' thetas) (upd_shaped thetas n t' HT Ht')). rewrite total_upd in H by assumption. lra.
    - intros H thetas' HT'. unfold total. apply sumn_le. intros n Hn. apply H; [exact Hn|]. now apply shaped_row.
  Qed.
  Lemma total_partial thetas n d l : shaped thetas -> (n < N)%nat ->
    (derivable_pt_lim (fun x => - total (set_score n d x thetas)) (nth d (nth n thetas []) 0) (- l) <-> partial_is (F n) (nth n thetas []) d l).
  Proof using Type.
    intros HT Hn. unfold partial_is, set_score. set (t := nth n thetas []). set (C := total thetas - F n t).
    assert (E : forall x, total (upd n (upd d x t) thetas) = C + F n (upd d x t)) by (intro x; now rewrite total_upd by assumption). split; intro H.
    - apply (derivable_ext (fun x => - (- total (upd n (upd d x t) thetas)) + - C)); [intro x; rewrite E; ring|].
      pose proof (derivable_pt_lim_plus _ _ _ _ _ (derivable_pt_lim_opp _ _ _ H) (derivable_pt_lim_const (- C) (nth d t 0))) as H2. replace l with (- - l + 0) by ring. exact H2.
    - apply (derivable_ext (fun x => - (C + F n (upd d x t)))); [intro x; now rewrite E|].
      pose proof (derivable_pt_lim_opp _ _ _ (derivable_pt_lim_plus _ _ _ _ _ (derivable_pt_lim_const C (nth d t 0)) H)) as H2. replace (- l) with (- (0 + l)) by ring. exact H2.
  Qed.
End Rows.
