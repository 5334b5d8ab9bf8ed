(** Difficulty of a shifted population; the two parameter logistic model as an instance. *)
From Verif Require Import Base BaseFacts RBase RFacts M_Data M_Logit S_Logit P_Logit P_Logit2 P_Logit3 P_Logit4 M_Lik M_Scale S_Scale P_Scale4 M_Pop S_Pop P_Pop1 P_Pop4 P_Spline4 P_Pop5 P_Stat1.
Import List.
Local Open Scope R_scope.

Lemma shifted_rows lv d h thetas : Forall (fun t => length t = lv) thetas -> Forall (fun t => length t = lv) (shifted d h thetas) /\ length (shifted d h thetas) = length thetas.
Proof.
  intro HF. unfold shifted. split; [|apply map_length]. apply Forall_forall. intros t Ht. apply in_map_iff in Ht as (t0 & <- & H0).
  rewrite upd_length. rewrite Forall_forall in HF. now apply HF.
Qed.
Lemma shifted_nth d h thetas r : (r < length thetas)%nat -> nth r (shifted d h thetas) [] = upd d (nth d (nth r thetas []) 0 + h) (nth r thetas []).
Proof. intro Hr. apply nth_error_nth. unfold shifted. rewrite nth_error_map, (nth_error_nth_lt thetas r []) by auto. reflexivity. Qed.

Section shift.
  Variables (lv : nat) (cats : list nat) (M : nat) (mc : option (list Z)) (probs : list (list R) -> list (list (list (option R)))) (p : list R -> nat -> nat -> R).
  Hypothesis HR : row_model lv cats M probs p.
  Hypothesis HV : valid_key cats mc.
  Hypothesis HM : forall i K, nth_error cats i = Some K -> (K <= M)%nat.

  Lemma difficulty_at thetas i K : Forall (fun t => length t = lv) thetas -> thetas <> [] -> nth_error cats i = Some K -> (keyed mc = true \/ (2 <= K)%nat) ->
    exists ds, population_difficulty cats M mc (probs thetas) = Ok ds /\ length ds = length cats /\
      nth_error ds i = Some (Some (sumn (length thetas) (fun r => 1 - expected_share M mc K (p (nth r thetas [])) i) / INR (length thetas))).
  Proof.
    intros HF Hne EK HKK. destruct (HR thetas HF) as [L T]. destruct (difficulty_entry cats M mc (probs thetas) _ T HV HM) as (ds & E & Ld & G).
    exists ds. split; [exact E|]. split; [exact Ld|].
    assert (Hp : probs thetas <> []) by (intro Hp; rewrite Hp in L; destruct thetas; [congruence|discriminate]).
    destruct (G i K EK Hp) as [G1 _]. rewrite (G1 HKK), L. reflexivity.
  Qed.
  Lemma mean_rows_sum {A} (f : A -> R) (l : list A) d : population_mean f l = sumn (length l) (fun r => f (nth r l d)) / INR (length l).
  Proof. unfold population_mean. f_equal. apply rsum_index; [now rewrite map_length|]. intros r Hr. rewrite nth_error_map, (nth_error_nth_lt l r d) by auto. reflexivity. Qed.
  Lemma difficulty_shift thetas i K d D : Forall (fun t => length t = lv) thetas -> thetas <> [] -> nth_error cats i = Some K -> (keyed mc = true \/ (2 <= K)%nat) -> (d < lv)%nat ->
    (forall t, In t thetas -> derivable_pt_lim (fun x => expected_share M mc K (p (upd d x t)) i) (nth d t 0) (D t)) ->
    exists f, (forall h, exists ds, population_difficulty cats M mc (probs (shifted d h thetas)) = Ok ds /\ nth_error ds i = Some (Some (f h))) /\
      derivable_pt_lim f 0 (- population_mean D thetas).
  Proof.
    intros HF Hne EK HKK Hd HD.
    exists (fun h => sumn (length thetas) (fun r => 1 - expected_share M mc K (p (upd d (nth d (nth r thetas []) 0 + h) (nth r thetas []))) i) / INR (length thetas)). split.
    - intro h. destruct (shifted_rows lv d h thetas HF) as [HF' HL']. assert (Hne' : shifted d h thetas <> []) by (destruct thetas; [congruence|discriminate]).
      destruct (difficulty_at (shifted d h thetas) i K HF' Hne' EK HKK) as (ds & E & _ & G). exists ds. split; [exact E|]. rewrite G, HL'. do 3 f_equal.
      apply sumn_ext. intros r Hr. rewrite shifted_nth by auto. reflexivity.
    - rewrite (mean_rows_sum D thetas []). replace (- (sumn (length thetas) (fun r => D (nth r thetas [])) / INR (length thetas))) with (sumn (length thetas) (fun r => 0 - D (nth r thetas [])) / INR (length thetas)).
      2:{ rewrite sumn_minus, sumn_zero by auto. unfold Rdiv. ring. }
      apply (derivable_div_const (fun h => sumn (length thetas) (fun r => 1 - expected_share M mc K (p (upd d (nth d (nth r thetas []) 0 + h) (nth r thetas []))) i))).
      apply (derivable_sum (length thetas) (fun r h => 1 - expected_share M mc K (p (upd d (nth d (nth r thetas []) 0 + h) (nth r thetas []))) i)).
      intros r Hr. apply (derivable_pt_lim_minus (fun _ => 1)); [apply derivable_pt_lim_const|].
      apply (derivable_shift (fun x => expected_share M mc K (p (upd d x (nth r thetas []))) i)). apply HD. now apply nth_In.
  Qed.
  (** A population scoring higher, respondent by respondent, finds the item easier. *)
  Lemma difficulty_order thetas thetas' i K : Forall (fun t => length t = lv) thetas -> Forall (fun t => length t = lv) thetas' -> length thetas = length thetas' -> thetas <> [] ->
    nth_error cats i = Some K -> (keyed mc = true \/ (2 <= K)%nat) ->
    (forall r, (r < length thetas)%nat -> expected_share M mc K (p (nth r thetas [])) i < expected_share M mc K (p (nth r thetas' [])) i) ->
    exists ds ds' x x', population_difficulty cats M mc (probs thetas) = Ok ds /\ population_difficulty cats M mc (probs thetas') = Ok ds' /\
      nth_error ds i = Some (Some x) /\ nth_error ds' i = Some (Some x') /\ x' < x.
  Proof.
    intros HF HF' HL Hne EK HKK H. assert (Hne' : thetas' <> []) by (destruct thetas, thetas'; cbn in *; congruence).
    destruct (difficulty_at thetas i K HF Hne EK HKK) as (ds & E & _ & G). destruct (difficulty_at thetas' i K HF' Hne' EK HKK) as (ds' & E' & _ & G').
    do 4 eexists. split; [exact E|]. split; [exact E'|]. split; [exact G|]. split; [exact G'|]. rewrite <- HL.
    assert (HN : (0 < length thetas)%nat) by (destruct thetas; [congruence|cbn; lia]). assert (HI : 0 < INR (length thetas)) by (now apply lt_0_INR).
    apply Rmult_lt_compat_r; [now apply Rinv_0_lt_compat|]. apply sumn_lt; [auto|]. intros r Hr. specialize (H r Hr). lra.
  Qed.
  Lemma difficulty_range thetas i K : Forall (fun t => length t = lv) thetas -> thetas <> [] -> nth_error cats i = Some K -> (2 <= K)%nat ->
    exists ds x, population_difficulty cats M mc (probs thetas) = Ok ds /\ nth_error ds i = Some (Some x) /\ 0 < x < 1.
  Proof.
    intros HF Hne EK HK. destruct (difficulty_at thetas i K HF Hne EK (or_intror HK)) as (ds & E & _ & G). do 2 eexists. split; [exact E|]. split; [exact G|].
    apply mean_between; [destruct thetas; [congruence|cbn; lia]|]. intros r Hr. pose proof (HM i K EK).
    destruct (HR thetas HF) as [L T]. destruct (nth_error (probs thetas) r) as [row|] eqn:Er; [|apply nth_error_None in Er; lia].
    destruct (T r row Er) as [Lr Tr]. assert (Hi : (i < length cats)%nat) by (apply nth_error_Some; congruence).
    destruct (nth_error row i) as [c|] eqn:Ec; [|apply nth_error_None in Ec; lia]. destruct (Tr i K c EK Ec) as (_ & _ & _ & V).
    pose proof (share_bounds K M mc (p (nth r thetas [])) i cats EK ltac:(lia) HV V). lra.
  Qed.
  Lemma discrimination_sign grad thetas i K d (D : list R -> R) : autograd_exact grad -> Forall (fun t => length t = lv) thetas -> thetas <> [] ->
    nth_error cats i = Some K -> (keyed mc = true \/ (2 <= K)%nat) -> (d < lv)%nat ->
    (forall t, In t thetas -> derivable_pt_lim (fun x => expected_share M mc K (p (upd d x t)) i) (nth d t 0) (D t)) ->
    (forall t t', length t = lv -> increases_in d t t' -> expected_share M mc K (p t) i <= expected_share M mc K (p t') i) ->
    exists g x, population_discrimination grad lv cats M mc probs thetas = Ok g /\ at2 g i d = Some (Some x) /\ 0 <= x.
  Proof.
    intros HG HF Hne EK HKK Hd HD Hmon. destruct (discrimination_entry lv cats M mc probs p HR HV HM grad thetas i K d D HG HF Hne EK HKK Hd HD) as (g & E & _ & G).
    exists g, (population_mean D thetas). split; [exact E|]. split; [exact G|]. rewrite (mean_rows_sum D thetas []).
    apply Rmult_le_pos; [|left; apply Rinv_0_lt_compat, lt_0_INR; destruct thetas; [congruence|cbn; lia]].
    apply sumn_nonneg. intros r Hr. pose proof (nth_In thetas [] Hr) as Hin. set (t := nth r thetas []) in *. rewrite Forall_forall in HF. pose proof (HF t Hin) as Ht.
    apply (deriv_le (fun x => expected_share M mc K (p (upd d x t)) i) (nth d t 0) (D t) 1); [lra|now apply HD|]. intros h Hh.
    assert (expected_share M mc K (p (upd d (nth d t 0) t)) i <= expected_share M mc K (p (upd d (nth d t 0 + h) t)) i); [|lra].
    apply Hmon; [now rewrite upd_length|]. unfold increases_in.
    assert (Hdt : (d < length t)%nat) by lia.
    split; [now rewrite !upd_length|]. rewrite !(nth_error_nth _ d 0 (nth_error_upd_eq d _ t Hdt)). split; [lra|].
    intros e He. destruct (Nat.lt_ge_cases e (length t)) as [Hel|Hel]; [|now rewrite !nth_overflow by (rewrite upd_length; lia)].
    assert (forall z, nth e (upd d z t) 0 = nth e t 0) as HH; [|now rewrite !HH].
    intro z. apply nth_error_nth. rewrite nth_error_upd_neq by auto. now apply nth_error_nth_lt.
  Qed.
End shift.

(** ** Two parameter logistic *)
Definition tpl_p (m : tpl) (t : list R) (i k : nat) : R :=
  let q := logistic (predictor (tpl_lv m) (slope (tpl_free m) (tpl_w m) i) t + nth i (tpl_b m) 0) in
  match k with O => 1 - q | 1%nat => q | _ => 0 end.
Lemma tpl_out m thetas : tpl_wf m -> Forall (fun t => length t = tpl_lv m) thetas -> Forall (fun o => length o = (tpl_items m * 2)%nat) (tpl_forward m thetas) /\ length (tpl_forward m thetas) = length thetas.
Proof.
  intros (Hlv & Hfr & Hw & Hb) HF. split; [|unfold tpl_forward; apply map_length]. unfold tpl_forward. eapply forward_map_Forall; [|exact HF]. intros a Ha.
  unfold set_mask. rewrite zip_with_length, map_length, zip_with_length, repeat_interleave_length, map_length.
  rewrite first_category_length, bias2_length, weight_matrix_length by auto. unfold tpl_items. lia.
Qed.
Lemma tpl_row_model m : tpl_wf m -> (0 < tpl_items m)%nat -> row_model (tpl_lv m) (repeat 2%nat (tpl_items m)) 2 (tpl_probabilities m) (tpl_p m).
Proof.
  intros Hwf Hn thetas HF. destruct (tpl_out m thetas Hwf HF) as [HO HL].
  destruct (probabilities_shape (tpl_items m) 2 (tpl_forward m thetas) Hn ltac:(lia) HO) as [L G].
  split; [unfold tpl_probabilities; congruence|]. intros r row Hr. destruct (G r row Hr) as [L1 L2]. split; [now rewrite repeat_length|].
  intros i K c EK Ec. assert (EK2 : K = 2%nat) by (apply nth_error_In, repeat_spec in EK; exact EK). subst K. assert (Hi : (i < tpl_items m)%nat) by (rewrite <- L1; apply nth_error_Some; congruence).
  assert (Hrl : (r < length thetas)%nat) by (rewrite <- HL, <- L; apply nth_error_Some; unfold tpl_probabilities in Hr; congruence).
  pose proof (nth_error_nth_lt thetas r [] Hrl) as Et. set (t := nth r thetas []) in *.
  split; [lia|]. split; [now apply (L2 i)|]. split.
  - intros k Hk. pose proof (tpl_probs_spec m thetas r t i k Hwf HF Et Hi Hk) as P. cbv zeta in P. unfold at3, at2 in P. rewrite Hr, Ec in P. rewrite P. unfold tpl_p.
    destruct k as [|[|k]]; [reflexivity|reflexivity|lia].
  - pose proof (logistic_bounds (predictor (tpl_lv m) (slope (tpl_free m) (tpl_w m) i) t + nth i (tpl_b m) 0)) as B.
    split; [|split; [|split]]; unfold tpl_p.
    + intros [|[|k]] Hk; cbv zeta; try lra; lia.
    + cbn [sumn]. cbv zeta. lra.
    + intros [|[|k]] Hk; cbv zeta; try lra; lia.
    + intros k Hk. lia.
Qed.
Lemma logistic_derivative x : derivable_pt_lim logistic x (logistic x * (1 - logistic x)).
Proof.
  pose proof (exp_pos (- x)) as HE.
  assert (D1 : derivable_pt_lim (fun y => 1 + exp (- y)) x (0 + exp (- x) * -1)).
  { apply (derivable_pt_lim_plus (fun _ => 1) (fun y => exp (- y))); [apply derivable_pt_lim_const|].
    apply (derivable_pt_lim_comp Ropp exp); [apply (derivable_pt_lim_opp id), derivable_pt_lim_id|apply derivable_pt_lim_exp]. }
  pose proof (derivable_pt_lim_div (fun _ => 1) (fun y => 1 + exp (- y)) x 0 _ (derivable_pt_lim_const 1 x) D1 ltac:(lra)) as D2.
  apply (derivable_ext (fun y => 1 / (1 + exp (- y)))); [intro; unfold logistic; unfold Rdiv; ring|].
  replace (logistic x * (1 - logistic x)) with ((0 * (1 + exp (- x)) - (0 + exp (- x) * -1) * 1) / (1 + exp (- x))²); [exact D2|].
  unfold logistic, Rsqr. field. lra.
Qed.
Lemma predictor_upd lv a t d x : (d < lv)%nat -> length t = lv -> predictor lv a (upd d x t) = predictor lv a t + a d * (x - nth d t 0).
Proof.
  intros Hd Ht. unfold predictor. rewrite <- (Rplus_0_l (a d * (x - nth d t 0))).
  assert (E : sumn lv (fun e => a e * nth e (upd d x t) 0) - sumn lv (fun e => a e * nth e t 0) = a d * (x - nth d t 0)).
  { rewrite <- sumn_minus. rewrite (sumn_single lv d).
    - rewrite (nth_error_nth _ d 0 (nth_error_upd_eq d x t ltac:(lia))). ring.
    - exact Hd.
    - intros k Hk Hne. rewrite (nth_error_nth (upd d x t) k 0 (x := nth k t 0)); [ring|]. rewrite nth_error_upd_neq by auto. apply nth_error_nth_lt. lia. }
  lra.
Qed.
Lemma tpl_share m K t i : K = 2%nat -> expected_share 2 None K (tpl_p m t) i = logistic (predictor (tpl_lv m) (slope (tpl_free m) (tpl_w m) i) t + nth i (tpl_b m) 0).
Proof. intros ->. unfold expected_share, tpl_p. cbn [sumn INR]. cbv zeta. field. Qed.
Lemma tpl_share_derivative m t i d : (d < tpl_lv m)%nat -> length t = tpl_lv m ->
  let q := logistic (predictor (tpl_lv m) (slope (tpl_free m) (tpl_w m) i) t + nth i (tpl_b m) 0) in
  derivable_pt_lim (fun x => expected_share 2 None 2 (tpl_p m (upd d x t)) i) (nth d t 0) (slope (tpl_free m) (tpl_w m) i d * q * (1 - q)).
Proof.
  intros Hd Ht q. set (a := slope (tpl_free m) (tpl_w m) i). set (z := predictor (tpl_lv m) a t + nth i (tpl_b m) 0).
  apply (derivable_ext (fun x => logistic (z + a d * (x - nth d t 0)))).
  { intro x. rewrite tpl_share by reflexivity. fold a. rewrite predictor_upd by auto. unfold z. f_equal. ring. }
  replace (a d * q * (1 - q)) with ((q * (1 - q)) * a d) by ring.
  apply (derivable_pt_lim_comp (fun x => z + a d * (x - nth d t 0)) logistic).
  - apply (derivable_ext (fun x => (z - a d * nth d t 0) + a d * x)); [intro; ring|].
    assert (DD : derivable_pt_lim (fun x => (z - a d * nth d t 0) + a d * x) (nth d t 0) (0 + a d * 1)).
    { apply (derivable_pt_lim_plus (fun _ => z - a d * nth d t 0) (fun x => a d * x)); [apply derivable_pt_lim_const|]. apply (derivable_pt_lim_scal id), derivable_pt_lim_id. }
    rewrite Rplus_0_l, Rmult_1_r in DD. exact DD.
  - replace (z + a d * (nth d t 0 - nth d t 0)) with z by ring. apply logistic_derivative.
Qed.
