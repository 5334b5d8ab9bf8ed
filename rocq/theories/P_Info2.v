(** Closed forms of the information: softmax families. *)
From Verif Require Import Base BaseFacts RBase RFacts M_Logit S_Logit P_Logit P_Logit2 P_Logit3 P_Logit4 M_Lik M_Est M_Stat S_Stat P_Spline4 M_Scale S_Scale P_Pop5 P_Pop6 M_Info S_Info P_Info1.
Import List.
Local Open Scope R_scope.

Lemma exp_affine_derivative c s x0 : derivable_pt_lim (fun x => exp (c + s * (x - x0))) x0 (s * exp c).
Proof.
  assert (A : derivable_pt_lim (fun x => c + s * (x - x0)) x0 s).
  { apply (derivable_ext (fun x => s * x + (c - s * x0))); [intro; ring|].
    pose proof (derivable_pt_lim_plus (fun x => s * x) (fun _ => c - s * x0) x0 _ _ (derivable_pt_lim_scal id s x0 1 (derivable_pt_lim_id x0)) (derivable_pt_lim_const (c - s * x0) x0)) as H.
    replace (s * 1 + 0) with s in H by ring. exact H. }
  pose proof (derivable_pt_lim_comp _ exp _ _ _ A (derivable_pt_lim_exp _)) as H.
  replace (s * exp c) with (exp (c + s * (x0 - x0)) * s); [exact H|]. replace (c + s * (x0 - x0)) with c by ring. ring.
Qed.
Lemma softmax_derivative K (c s : nat -> R) x0 k : (1 <= K)%nat ->
  derivable_pt_lim (fun x => category_probability K (fun j => c j + s j * (x - x0)) k) x0
    (category_probability K c k * (s k - category_mean K (category_probability K c) s)).
Proof.
  intro HK. pose proof (sum_exp_pos K c HK) as HS. set (S0 := sumn K (fun j => exp (c j))) in *.
  assert (D : derivable_pt_lim (fun x => sumn K (fun j => exp (c j + s j * (x - x0)))) x0 (sumn K (fun j => s j * exp (c j)))).
  { apply (derivable_sum K (fun j x => exp (c j + s j * (x - x0)))). intros j _. apply exp_affine_derivative. }
  assert (E0 : sumn K (fun j => exp (c j + s j * (x0 - x0))) = S0) by (apply sumn_ext; intros j _; f_equal; ring).
  assert (Ek : exp (c k + s k * (x0 - x0)) = exp (c k)) by (f_equal; ring).
  pose proof (derivable_pt_lim_div _ _ _ _ _ (exp_affine_derivative (c k) (s k) x0) D) as H. cbv beta in H. rewrite E0 in H. specialize (H ltac:(lra)).
  unfold category_probability at 1. unfold div_fct in H. rewrite Ek in H.
  match type of H with derivable_pt_lim _ _ ?l => match goal with |- derivable_pt_lim _ _ ?m => replace m with l; [exact H|] end end.
  unfold category_mean, category_probability. fold S0.
  rewrite (sumn_ext K (fun j => exp (c j) / S0 * s j) (fun j => s j * exp (c j) / S0)) by (intros; field; lra). rewrite sumn_div. unfold Rsqr. field. lra.
Qed.
Lemma category_mean_zero K p s : sumn K p = 1 -> sumn K (fun k => p k * (s k - category_mean K p s)) = 0.
Proof.
  intro H. rewrite (sumn_ext K _ (fun k => p k * s k - p k * category_mean K p s)) by (intros; ring). rewrite sumn_minus, sumn_scal_r, H. unfold category_mean. ring.
Qed.
Lemma fisher_softmax K M q G (s : nat -> nat -> R) d e : (K <= M)%nat -> (forall k, (k < K)%nat -> 0 < q k) -> (forall k, (K <= k < M)%nat -> q k = 0) ->
  (forall k f, (k < K)%nat -> f = d \/ f = e -> G k f = q k * (s k f - category_mean K q (fun j => s j f))) ->
  fisher M q G d e = category_covariance K q (fun k => s k d) (fun k => s k e).
Proof.
  intros HK HP HZ HG. unfold fisher, category_covariance. rewrite (sumn_truncate K M); [|exact HK|intros k Hk; rewrite (HZ k Hk); destruct (Req_EM_T 0 0); [reflexivity|lra]].
  apply sumn_ext. intros k Hk. pose proof (HP k Hk). destruct (Req_EM_T (q k) 0); [lra|]. rewrite !HG by auto. field. lra.
Qed.
(** A model of softmax type: item [i] has [nth i cats] categories with logits [c] that are affine in the scores. *)
Definition soft (cats : list nat) (z : list R -> nat -> nat -> R) (t : list R) (i k : nat) : R :=
  if (k <? nth i cats O)%nat then category_probability (nth i cats O) (z t i) k else 0.
Section soft_model.
  Context (grad : (R -> R) -> R -> R) (solve : list (list R) -> list R -> result (list fl)) (probs : list (list R) -> list (list (list (option R)))) (M lv : nat)
    (cats : list nat) (z : list R -> nat -> nat -> R) (s : nat -> nat -> nat -> R)
    (HR : reads lv (length cats) M probs (soft cats z)) (HG : autograd_exact grad) (scales : list scale) (rescale : bool) (HP : rescale = false \/ scales = [])
    (HC : forall i, (i < length cats)%nat -> (1 <= nth i cats O <= M)%nat)
    (Hz : forall t i k d x, length t = lv -> (i < length cats)%nat -> (k < nth i cats O)%nat -> (d < lv)%nat -> z (upd d x t) i k = z t i k + s i k d * (x - nth d t 0))
    (thetas : list (list R)) (HF : Forall (fun t => length t = lv) thetas) (r : nat) (t : list R) (Ht : nth_error thetas r = Some t).
  Let D (i k d : nat) : R := if (k <? nth i cats O)%nat
    then category_probability (nth i cats O) (z t i) k * (s i k d - category_mean (nth i cats O) (category_probability (nth i cats O) (z t i)) (fun j => s i j d)) else 0.
  Lemma cp_ext K c c' k : (k < K)%nat -> (forall j, (j < K)%nat -> c j = c' j) -> category_probability K c k = category_probability K c' k.
  Proof. intros Hk H. unfold category_probability. rewrite (H k Hk). f_equal. apply sumn_ext. intros j Hj. now rewrite H. Qed.
  Lemma soft_partials : partials lv (length cats) M (soft cats z) t D.
  Proof using HF Ht Hz HC.
    assert (Lt : length t = lv) by (rewrite Forall_forall in HF; apply HF; eapply nth_error_In; eauto).
    intros i k d Hi Hk Hd. unfold soft, D. destruct (Nat.ltb_spec k (nth i cats O)) as [Hc|Hc]; [|apply derivable_pt_lim_const].
    apply (derivable_ext (fun x => category_probability (nth i cats O) (fun j => z t i j + s i j d * (x - nth d t 0)) k)).
    - intro x. apply cp_ext; [exact Hc|]. intros j Hj. symmetry. now apply Hz.
    - apply (softmax_derivative (nth i cats O) (z t i) (fun j => s i j d) (nth d t 0) k). apply HC. exact Hi.
  Qed.
  Lemma soft_supported : supported lv (length cats) M (soft cats z) t D.
  Proof using HC.
    intros i k Hi Hk. unfold soft, D. destruct (Nat.ltb_spec k (nth i cats O)) as [Hc|Hc]; [left; apply category_probability_pos, HC; exact Hi|right; split; reflexivity].
  Qed.
  Lemma soft_fisher i d e : (i < length cats)%nat -> fisher M (soft cats z t i) (D i) d e =
    category_covariance (nth i cats O) (category_probability (nth i cats O) (z t i)) (fun k => s i k d) (fun k => s i k e).
  Proof using HC.
    intro Hi. destruct (HC i Hi) as [H1 H2].
    assert (E : forall k, (k < nth i cats O)%nat -> soft cats z t i k = category_probability (nth i cats O) (z t i) k).
    { intros k Hk. unfold soft. destruct (Nat.ltb_spec k (nth i cats O)); [reflexivity|lia]. }
    assert (EM : forall u, category_mean (nth i cats O) (soft cats z t i) u = category_mean (nth i cats O) (category_probability (nth i cats O) (z t i)) u).
    { intro u. apply sumn_ext. intros k Hk. now rewrite E. }
    rewrite (fisher_softmax (nth i cats O) M (soft cats z t i) (D i) (s i)).
    - unfold category_covariance. apply sumn_ext. intros k Hk. now rewrite E, !EM.
    - exact H2.
    - intros k Hk. rewrite E by exact Hk. apply category_probability_pos. exact H1.
    - intros k Hk. unfold soft. destruct (Nat.ltb_spec k (nth i cats O)); [lia|reflexivity].
    - intros k f Hk _. unfold D. destruct (Nat.ltb_spec k (nth i cats O)); [|lia]. now rewrite E, EM.
  Qed.
  Lemma soft_item i : (i < length cats)%nat -> item_matrix_is lv (model_information grad solve probs (length cats) M lv scales rescale None true thetas) r i
    (fun d e => category_covariance (nth i cats O) (category_probability (nth i cats O) (z t i)) (fun k => s i k d) (fun k => s i k e)).
  Proof.
    intro Hi. destruct (plain_item grad solve probs (length cats) M lv _ HR HG scales rescale HP thetas HF r t Ht D soft_partials soft_supported i Hi) as (infos & Ms & Mi & E1 & E2 & E3 & E4).
    exists infos, Ms, Mi. split; [exact E1|]. split; [exact E2|]. split; [exact E3|]. intros d e Hd He. rewrite <- soft_fisher by exact Hi. now apply E4.
  Qed.
  Lemma soft_test : test_matrix_is lv (model_information grad solve probs (length cats) M lv scales rescale None false thetas) r
    (fun d e => sumn (length cats) (fun i => category_covariance (nth i cats O) (category_probability (nth i cats O) (z t i)) (fun k => s i k d) (fun k => s i k e))).
  Proof.
    destruct (plain_test grad solve probs (length cats) M lv _ HR HG scales rescale HP thetas HF r t Ht D soft_partials soft_supported) as (infos & Mt & E1 & E2 & E4).
    exists infos, Mt. split; [exact E1|]. split; [exact E2|]. intros d e Hd He. rewrite <- (sumn_ext _ _ _ (fun i Hi => soft_fisher i d e Hi)). now apply E4.
  Qed.
End soft_model.
