(** Information on a transformed scale, and bounds of the information. *)
From Verif Require Import Base BaseFacts RBase RFacts M_Logit S_Logit P_Logit P_Logit2 P_Logit3 P_Logit4 M_Lik P_Lik3 P_Lik5 M_Est M_Stat S_Stat P_Spline4 M_Scale S_Scale P_Scale1 P_Scale2 P_Scale3 P_Scale4 P_Pop5 P_Pop6 M_Info S_Info P_Info1 P_Info2 P_Info3 P_Info4.
Import List.
Local Open Scope R_scope.

Lemma blocks_cube {A} (x : A) N items M (l : list A) : (0 < M)%nat -> (0 < items)%nat -> length l = (N * (items * M))%nat ->
  blocks items (blocks M l) = map (fun r => map (fun i => map (fun k => nth (r * (items * M) + (i * M + k)) l x) (seq 0 M)) (seq 0 items)) (seq 0 N).
Proof.
  intros HM HI HL. rewrite (blocks_table x M (N * items) l HM) by lia. rewrite (blocks_table [] items N) by (auto; rewrite map_length, seq_length; reflexivity).
  apply map_ext_in. intros r Hr. apply in_seq in Hr. apply map_ext_in. intros i Hi. apply in_seq in Hi.
  rewrite (nth_error_nth _ (r * items + i) [] (x := map (fun k => nth ((r * items + i) * M + k) l x) (seq 0 M))).
  - apply map_ext. intro k. f_equal. nia.
  - rewrite nth_error_map, nth_error_seq by nia. reflexivity.
Qed.
Section scaled.
  Context (grad : (R -> R) -> R -> R) (solve : list (list R) -> list R -> result (list fl)) (probs : list (list R) -> list (list (list (option R)))) (items M lv : nat)
    (p : list R -> nat -> nat -> R) (HR : reads lv items M probs p) (HG : autograd_exact grad) (scales : list scale) (fs : list (list R -> list R))
    (Hne : scales <> []) (Hlv : (0 < lv)%nat) (HM : (0 < M)%nat) (HI : (0 < items)%nat) (Hsolve : solve_exact lv solve) (HA : Forall2 (acts_as lv) scales fs)
    (thetas : list (list R)) (HF : Forall (fun t => length t = lv) thetas) (HD : derivatives_along lv scales fs thetas)
    (Hinv : forall t J, In t thetas -> is_jacobian lv lv (compose_all fs) t J -> exists B, inverse_matrix lv J B)
    (r : nat) (t : list R) (Ht : nth_error thetas r = Some t) (D : nat -> nat -> nat -> R) (HP : partials lv items M p t D) (HS : supported lv items M p t D).
  Let g := map (probability_gradient_at grad probs items M lv) thetas.
  Lemma gradient_at_shape s : length (probability_gradient_at grad probs items M lv s) = items /\ Forall (fun l => length l = M /\ Forall (fun v => length v = lv) l) (probability_gradient_at grad probs items M lv s).
  Proof using.
    unfold probability_gradient_at. rewrite map_length, seq_length. split; [reflexivity|]. apply Forall_forall. intros l Hl. apply in_map_iff in Hl as (i & <- & _).
    rewrite map_length, seq_length. split; [reflexivity|]. apply Forall_forall. intros v Hv. apply in_map_iff in Hv as (k & <- & _). now rewrite map_length, seq_length.
  Qed.
  Lemma g_rows : Forall (fun l => length l = items) g.
  Proof using. apply Forall_forall. intros l Hl. apply in_map_iff in Hl as (s & <- & _). apply gradient_at_shape. Qed.
  Lemma g_cells : Forall (fun l => length l = M) (concat g).
  Proof using. apply Forall_forall. intros l Hl. apply in_concat in Hl as (x & Hx & Hl). apply in_map_iff in Hx as (s & <- & _). destruct (gradient_at_shape s) as [_ F]. rewrite Forall_forall in F. now apply F. Qed.
  Lemma g_flat_length : length (concat (concat g)) = (length thetas * (items * M))%nat.
  Proof using Hlv HM HI.
    rewrite (length_concat_const _ M g_cells), (length_concat_const _ items g_rows). unfold g. rewrite map_length. lia.
  Qed.
  Lemma g_flat_width : Forall (fun v => length v = lv) (concat (concat g)).
  Proof using.
    apply Forall_forall. intros v Hv. apply in_concat in Hv as (l & Hl & Hv). apply in_concat in Hl as (x & Hx & Hl). apply in_map_iff in Hx as (s & <- & _).
    destruct (gradient_at_shape s) as [_ F]. rewrite Forall_forall in F. destruct (F l Hl) as [_ F']. rewrite Forall_forall in F'. now apply F'.
  Qed.
  Lemma t_width : length t = lv.
  Proof using HF Ht. rewrite Forall_forall in HF. apply HF. eapply nth_error_In; eauto. Qed.
  Lemma g_flat_entry i k : (i < items)%nat -> (k < M)%nat -> nth (r * (items * M) + (i * M + k)) (concat (concat g)) [] = map (D i k) (seq 0 lv).
  Proof using HR HG HP HF Ht Hlv HM HI.
    intros Hi Hk. apply nth_error_nth. replace (r * (items * M) + (i * M + k))%nat with ((r * items + i) * M + k)%nat by nia.
    assert (E : nth_error (concat g) (r * items + i) = Some (map (fun k => map (D i k) (seq 0 lv)) (seq 0 M))).
    { rewrite (nth_error_concat_const g items r i (probability_gradient_at grad probs items M lv t) g_rows); [|unfold g; now rewrite nth_error_map, Ht|exact Hi].
      rewrite (gradient_reads lv items M probs p grad t D HR HG t_width HP). rewrite nth_error_map, nth_error_seq by exact Hi. reflexivity. }
    rewrite (nth_error_concat_const _ M _ k _ g_cells E Hk). rewrite nth_error_map, nth_error_seq by exact Hk. reflexivity.
  Qed.
  Lemma scaled_gradients : exists (G : nat -> nat -> nat -> R) J B gs, probability_gradients grad solve probs items M lv scales true thetas = Ok gs /\ length gs = length thetas /\
    nth_error gs r = Some (map (fun i => map (fun k => map (G i k) (seq 0 lv)) (seq 0 M)) (seq 0 items)) /\
    is_jacobian lv lv (compose_all fs) t J /\ inverse_matrix lv J B /\
    (forall i k d, (i < items)%nat -> (k < M)%nat -> (d < lv)%nat -> D i k d = sumn lv (fun a => nth d (nth a J []) 0 * G i k a)) /\
    (forall i k a, (i < items)%nat -> (k < M)%nat -> (a < lv)%nat -> G i k a = sumn lv (fun d => nth a (nth d B []) 0 * D i k d)).
  Proof using HR HG Hne Hlv HM HI Hsolve HA HF HD Hinv Ht HP.
    assert (Hnt : thetas <> []) by (intro E; rewrite E in Ht; destruct r; discriminate).
    destruct (rescale_rows lv solve scales fs thetas (items * M) (concat (concat g)) Hlv Hnt Hsolve HA HF HD Hinv g_flat_length g_flat_width) as (out & EO & LO & HO).
    destruct (HO r t Ht) as (J & B & HJ & HB & HV). rewrite g_flat_length in LO.
    exists (fun i k a => nth a (nth (r * (items * M) + (i * M + k)) out []) 0), J, B, (blocks items (blocks M out)).
    assert (Hr : (r < length thetas)%nat) by (apply nth_error_Some; congruence).
    assert (Hj : forall i k, (i < items)%nat -> (k < M)%nat -> (i * M + k < items * M)%nat) by (intros; nia).
    split.
    { unfold probability_gradients. destruct scales as [|sc scs]; [congruence|]. fold g. rewrite EO. reflexivity. }
    rewrite (blocks_cube [] (length thetas) items M out HM HI LO). split; [now rewrite map_length, seq_length|]. split; [|split; [exact HJ|split; [exact HB|split]]].
    - rewrite nth_error_map, nth_error_seq by exact Hr. cbn [option_map Nat.add]. f_equal. apply map_ext_in. intros i Hi. apply map_ext_in. intros k Hk. apply in_seq in Hi, Hk.
      destruct (HV _ (Hj i k ltac:(lia) ltac:(lia))) as [Lv _]. apply nth_error_ext. intro a. destruct (Nat.lt_ge_cases a lv) as [Ha|Ha].
      + rewrite nth_error_map, nth_error_seq by exact Ha. apply nth_error_nth_lt. lia.
      + rewrite (proj2 (nth_error_None _ _)), (proj2 (nth_error_None _ _)); [reflexivity|rewrite map_length, seq_length; exact Ha|lia].
    - intros i k d Hi Hk Hd. destruct (HV _ (Hj i k Hi Hk)) as [Lv Hv]. rewrite g_flat_entry in Hv by assumption.
      assert (E : nth d (map (D i k) (seq 0 lv)) 0 = D i k d) by (now rewrite nth_map_seq). rewrite <- E, <- Hv.
      assert (HJm : is_matrix lv lv J) by apply HB.
      rewrite (nth_mvec lv lv) by (auto; now apply transpose_matrix). apply sumn_ext. intros a Ha. now rewrite (nth_transpose lv).
    - intros i k a Hi Hk Ha. destruct (HV _ (Hj i k Hi Hk)) as [Lv Hv]. rewrite g_flat_entry in Hv by assumption.
      pose proof (inverse_transpose lv J B Hlv HB) as HBt. rewrite <- (mvec_inverse lv _ _ _ Hlv HBt Lv), Hv.
      rewrite (nth_mvec lv lv); [|apply transpose_matrix; [exact Hlv|apply HB]|now rewrite map_length, seq_length|exact Ha].
      apply sumn_ext. intros d Hd. rewrite (nth_transpose lv) by (auto; apply HB). now rewrite nth_map_seq.
  Qed.
  Lemma scaled_item i : (i < items)%nat -> exists J B I I', is_jacobian lv lv (compose_all fs) t J /\ inverse_matrix lv J B /\
    item_matrix_is lv (model_information grad solve probs items M lv scales false None true thetas) r i I /\
    item_matrix_is lv (model_information grad solve probs items M lv scales true None true thetas) r i I' /\
    (forall d e, (d < lv)%nat -> (e < lv)%nat -> I d e = sumn lv (fun a => sumn lv (fun b => nth d (nth a J []) 0 * I' a b * nth e (nth b J []) 0))) /\
    (forall a b, (a < lv)%nat -> (b < lv)%nat -> I' a b = sumn lv (fun d => sumn lv (fun e => nth a (nth d B []) 0 * I d e * nth b (nth e B []) 0))).
  Proof.
    intro Hi. destruct scaled_gradients as (G & J & B & gs & E1 & L1 & E2 & HJ & HB & X1 & X2).
    exists J, B, (fisher M (p t i) (D i)), (fisher M (p t i) (G i)). split; [exact HJ|]. split; [exact HB|]. split; [|split; [|split]].
    - exact (plain_item grad solve probs items M lv p HR HG scales false (or_introl eq_refl) thetas HF r t Ht D HP HS i Hi).
    - destruct (model_information_row grad solve probs items M lv scales true true thetas gs r _ E1 L1 E2) as (infos & EI & EN).
      assert (HS' : supported lv items M p t G).
      { intros j k Hj Hk. destruct (HS j k Hj Hk) as [P|[P Z]]; [now left|right]. split; [exact P|]. intros a Ha. rewrite X2 by assumption.
        rewrite (sumn_ext lv _ (fun _ => 0)); [apply sumn_0|]. intros d Hd. rewrite Z by exact Hd. ring. }
      destruct (outcome_item probs items M lv p HR thetas HF r t i G Ht Hi HS') as (Ms & Mi & EO & EM & EE). exists infos, Ms, Mi. rewrite EN, EO. auto.
    - intros d e Hd He. unfold fisher. rewrite (sumn_ext M _ (fun k => sumn lv (fun a => sumn lv (fun b => nth d (nth a J []) 0 * (if Req_EM_T (p t i k) 0 then 0 else G i k a * G i k b / p t i k) * nth e (nth b J []) 0)))).
      + rewrite sumn_swap. apply sumn_ext. intros a Ha. rewrite sumn_swap. apply sumn_ext. intros b Hb. rewrite sumn_scal_r, sumn_scal. reflexivity.
      + intros k Hk. destruct (Req_EM_T (p t i k) 0) as [Z|Z].
        * symmetry. rewrite (sumn_ext lv _ (fun _ => 0)); [apply sumn_0|]. intros a _. rewrite (sumn_ext lv _ (fun _ => 0)); [apply sumn_0|]. intros; ring.
        * rewrite !X1 by assumption. unfold Rdiv. rewrite sumn_mul, <- sumn_scal_r. apply sumn_ext. intros a _. rewrite <- sumn_scal_r. apply sumn_ext. intros b _. ring.
    - intros d e Hd He. unfold fisher. rewrite (sumn_ext M _ (fun k => sumn lv (fun a => sumn lv (fun b => nth d (nth a B []) 0 * (if Req_EM_T (p t i k) 0 then 0 else D i k a * D i k b / p t i k) * nth e (nth b B []) 0)))).
      + rewrite sumn_swap. apply sumn_ext. intros a Ha. rewrite sumn_swap. apply sumn_ext. intros b Hb. rewrite sumn_scal_r, sumn_scal. reflexivity.
      + intros k Hk. destruct (Req_EM_T (p t i k) 0) as [Z|Z].
        * symmetry. rewrite (sumn_ext lv _ (fun _ => 0)); [apply sumn_0|]. intros a _. rewrite (sumn_ext lv _ (fun _ => 0)); [apply sumn_0|]. intros; ring.
        * rewrite !X2 by assumption. unfold Rdiv. rewrite sumn_mul, <- sumn_scal_r. apply sumn_ext. intros a _. rewrite <- sumn_scal_r. apply sumn_ext. intros b _. ring.
  Qed.
End scaled.

(** ** Bounds *)
Lemma logistic_product x : logistic x * (1 - logistic x) <= 1 / 4 /\ (logistic x * (1 - logistic x) = 1 / 4 <-> x = 0).
Proof.
  assert (L0 : logistic 0 = / 2) by (unfold logistic; rewrite Ropp_0, exp_0; lra).
  assert (S0 : 0 <= (logistic x - 1/2) * (logistic x - 1/2)) by apply Rle_0_sqr. split; [nra|]. split.
  - intro H. assert (Q : (logistic x - 1/2) * (logistic x - 1/2) = 0) by nra. apply Rmult_integral in Q.
    assert (E : logistic x = logistic 0) by (rewrite L0; lra). destruct (Rtotal_order x 0) as [H1|[H1|H1]]; [|exact H1|]; apply logistic_lt_iff in H1; lra.
  - intros ->. rewrite L0. lra.
Qed.
(** Variance of a score between 0 and K - 1. *)
Lemma covariance_shift K p s c : sumn K p = 1 -> (forall k, (k < K)%nat -> 0 <= p k) -> category_covariance K p s s <= sumn K (fun k => p k * (s k - c) ^ 2).
Proof.
  intros H1 HP. set (mu := category_mean K p s).
  assert (E : sumn K (fun k => p k * (s k - c) ^ 2) = category_covariance K p s s + (mu - c) ^ 2).
  { unfold category_covariance. fold mu.
    rewrite (sumn_ext K (fun k => p k * (s k - c) ^ 2) (fun k => p k * (s k - mu) * (s k - mu) + (2 * (mu - c) * (p k * (s k - mu)) + p k * (mu - c) ^ 2))) by (intros; ring).
    rewrite sumn_plus. f_equal. rewrite sumn_plus, sumn_scal, sumn_scal_r, H1, (category_mean_zero K p s H1 : sumn K (fun k => p k * (s k - mu)) = 0). ring. }
  rewrite E. pose proof (pow2_ge_0 (mu - c)). lra.
Qed.
Lemma score_variance_bound K p : (1 <= K)%nat -> sumn K p = 1 -> (forall k, (k < K)%nat -> 0 <= p k) -> category_covariance K p INR INR <= (INR K - 1) ^ 2 / 4.
Proof.
  intros HK H1 HP. eapply Rle_trans; [apply (covariance_shift K p INR ((INR K - 1) / 2) H1 HP)|].
  eapply Rle_trans; [apply (sumn_le K _ (fun k => p k * ((INR K - 1) ^ 2 / 4)))|].
  - intros k Hk. apply Rmult_le_compat_l; [now apply HP|]. pose proof (pos_INR k). assert (INR k <= INR K - 1).
    { assert (INR (S k) <= INR K) by (apply le_INR; lia). rewrite S_INR in H0. lra. }
    nra.
  - rewrite sumn_scal_r, H1. lra.
Qed.
(** Guessing takes information away. *)
Lemma guessing_loss c l : 0 < c < 1 -> 0 < l < 1 -> let P := c + (1 - c) * l in (1 - P) / P * ((P - c) / (1 - c)) ^ 2 < l * (1 - l).
Proof.
  intros Hc Hl P. assert (HP : 0 < P) by (unfold P; nra). replace ((P - c) / (1 - c)) with l by (unfold P; field; lra).
  replace (1 - P) with ((1 - c) * (1 - l)) by (unfold P; ring). apply Rmult_lt_reg_r with P; [exact HP|].
  replace ((1 - c) * (1 - l) / P * l ^ 2 * P) with ((1 - c) * (1 - l) * l ^ 2) by (field; lra). unfold P.
  assert (0 < c * (l * (1 - l))) by (apply Rmult_lt_0_compat; [lra|nra]). nra.
Qed.
