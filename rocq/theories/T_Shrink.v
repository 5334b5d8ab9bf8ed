(** Property C130: MAP scores are shrunk towards the mean of the prior. *)
From Verif Require Import Base BaseFacts RBase RFacts M_Data M_Logit M_Lik M_Est M_Opt P_Logit P_Spline4 P_Est1 P_Est2 P_Opt1 P_Opt2 P_Opt3 P_Opt4 P_Opt5 P_Scoreq S_Logit S_Lik S_Est S_Opt S_Shrink.
From Verif Require Import S_Max.
From Verif Require T_Opt T_Max.
Import List.
Local Open Scope R_scope.

Lemma least_rows m p prior data thetas : library_model m p -> legal_data (em_cats m) data -> least_loss m prior data thetas ->
  forall n row t, nth_error data n = Some row -> nth_error thetas n = Some t -> length t = em_lv m /\ legal_row (em_cats m) row /\ maximum (em_lv m) (row_target p prior row) t.
Proof.
  intros Hm HD [HR HB] n row t En Et. assert (Hn : (n < length data)%nat) by (apply nth_error_Some; congruence).
  set (F := fun n => row_target p prior (nth n data [])).
  assert (B : forall thetas', shaped (em_lv m) (length data) thetas' -> total F (length data) thetas' <= total F (length data) thetas).
  { intros th Hth. destruct (HB th Hth) as (a & b & Ea & Eb & Hab). destruct HR as [R1 R2]. destruct Hth as [T1 T2]. rewrite (scoring_loss_value m p) in Ea, Eb by assumption. injection Ea as <-. injection Eb as <-. unfold total, F. lra. }
  pose proof (proj1 (total_best (em_lv m) F (length data) thetas HR) B n Hn) as Mx. rewrite (nth_error_nth _ _ [] Et) in Mx. unfold F in Mx. rewrite (nth_error_nth _ _ [] En) in Mx.
  split; [destruct HR as [_ HF]; rewrite Forall_forall in HF; apply HF; eapply nth_error_In; eauto|]. split; [unfold legal_data in HD; rewrite Forall_forall in HD; apply HD; eapply nth_error_In; eauto|exact Mx].
Qed.
Lemma quad_scale lv P s x : quad lv (fun d e => s * P d e) x = s * quad lv P x.
Proof. unfold quad. rewrite <- sumn_scal. apply sumn_ext. intros d _. rewrite <- sumn_scal. apply sumn_ext. intros e _. ring. Qed.
Lemma quad_gradient lv P t : quad lv P (fun d => nth d t 0) = - sumn lv (fun d => nth d t 0 * prior_gradient lv P t d).
Proof.
  unfold quad, prior_gradient. rewrite <- sumn_opp. apply sumn_ext. intros d _.
  match goal with |- _ = - (_ * ?g) => replace g with (- sumn lv (fun e => P d e * nth e t 0)) by reflexivity end.
  replace (- (nth d t 0 * - sumn lv (fun e => P d e * nth e t 0))) with (nth d t 0 * sumn lv (fun e => P d e * nth e t 0)) by ring. rewrite <- sumn_scal. apply sumn_ext. intros e _. ring.
Qed.

(** For every model and number of latent variables: the MAP score of a respondent is no farther from the mean of the prior
    than any ML score, and its answers are no more likely. Without guessing it is strictly closer, unless the ML score is
    the mean of the prior itself. *)
Theorem C130_closer : forall m p data c P ml map,
  library_model m p -> legal_data (em_cats m) data -> precision (em_lv m) P ->
  least_loss m None data ml -> least_loss m (Some (normal_prior (em_lv m) c P)) data map ->
  forall n row t s, nth_error data n = Some row -> nth_error ml n = Some t -> nth_error map n = Some s ->
  distance (em_lv m) P s <= distance (em_lv m) P t /\ likelihood p s row <= likelihood p t row /\
  (log_concave (em_lv m) (em_cats m) p -> (exists d, (d < em_lv m)%nat /\ nth d t 0 <> 0) -> distance (em_lv m) P s < distance (em_lv m) P t).
Proof.
  intros m p data c P ml map Hm HD [HS HPD] Hml Hmap n row t s En Et Es. set (lv := em_lv m) in *.
  destruct (least_rows m p None data ml Hm HD Hml n row t En Et) as (Lt & HL & M1). destruct (least_rows m p _ data map Hm HD Hmap n row s En Es) as (Ls & _ & M2). fold lv in Lt, Ls, M1, M2.
  pose proof (M1 s Ls) as A1. pose proof (M2 t Lt) as A2. unfold row_target, prior_term, normal_prior in A1, A2. unfold distance.
  assert (D1 : quad lv P (fun d => nth d s 0) <= quad lv P (fun d => nth d t 0)) by lra. split; [exact D1|]. split.
  - apply (proj1 (T_Opt.ln_le_iff _ _ (library_likelihood m p s row Hm HL) (library_likelihood m p t row Hm HL))). lra.
  - intros HC HZ. destruct D1 as [|E]; [assumption|]. exfalso.
    assert (HP : forall t i k, length t = lv -> (k < nth i (em_cats m) O)%nat -> 0 < p t i k) by (intros; now apply (library_pos m p Hm)).
    pose proof (likelihood_touches lv (em_cats m) p row t HP HC Lt HL) as T1.
    assert (M1' : maximum lv (fun t => ln (likelihood p t row)) t). { intros u Lu. specialize (M1 u Lu). unfold row_target, prior_term in M1. lra. }
    pose proof (proj2 (tangent_stationary lv _ t _ Lt T1) M1') as G1.
    pose proof (touches_plus lv _ _ t _ _ T1 (prior_touches lv c P HS t HPD Lt)) as T2.
    assert (M3 : maximum lv (fun t => ln (likelihood p t row) + normal_prior lv c P t) t). { intros u Lu. specialize (M2 u Lu). unfold row_target, prior_term in M2. unfold normal_prior in M2 |- *. lra. }
    assert (G3 : forall d, (d < lv)%nat -> 0 + prior_gradient lv P t d = 0).
    { apply (proj1 (stationary_max lv _ t _ (fun d => 0 + prior_gradient lv P t d) Lt T2 ltac:(intros d Hd; exact (derivable_pt_lim_plus _ _ _ _ _ (G1 d Hd) (prior_partial lv c P HS t d Lt Hd))))). exact M3. }
    pose proof (HPD (fun d => nth d t 0) HZ) as Q. rewrite quad_gradient in Q. rewrite (sumn_ext lv _ (fun _ => 0)) in Q; [rewrite sumn_0 in Q; lra|]. intros d Hd. specialize (G3 d Hd). replace (prior_gradient lv P t d) with 0 by lra. ring.
Qed.
Print Assumptions C130_closer.

(** A prior that is tighter by a common factor does not leave the score farther out. *)
Theorem C130_tighter : forall m p data c c' P f wide tight,
  library_model m p -> legal_data (em_cats m) data -> precision (em_lv m) P -> 1 < f ->
  least_loss m (Some (normal_prior (em_lv m) c P)) data wide -> least_loss m (Some (normal_prior (em_lv m) c' (fun d e => f * P d e))) data tight ->
  forall n row t s, nth_error data n = Some row -> nth_error wide n = Some t -> nth_error tight n = Some s ->
  distance (em_lv m) P s <= distance (em_lv m) P t /\ likelihood p s row <= likelihood p t row.
Proof.
  intros m p data c c' P f wide tight Hm HD _ Hf H1 H2 n row t s En Et Es. set (lv := em_lv m) in *.
  destruct (least_rows m p _ data wide Hm HD H1 n row t En Et) as (Lt & HL & M1). destruct (least_rows m p _ data tight Hm HD H2 n row s En Es) as (Ls & _ & M2). fold lv in Lt, Ls, M1, M2.
  pose proof (M1 s Ls) as A1. pose proof (M2 t Lt) as A2. unfold row_target, prior_term, normal_prior in A1, A2. rewrite !quad_scale in A2. unfold distance.
  assert (D : quad lv P (fun d => nth d s 0) <= quad lv P (fun d => nth d t 0)) by nra. split; [exact D|].
  apply (proj1 (T_Opt.ln_le_iff _ _ (library_likelihood m p s row Hm HL) (library_likelihood m p t row Hm HL))). lra.
Qed.
Print Assumptions C130_tighter.

(** With one latent variable and no guessing the MAP score lies between the mean of the prior and every ML score, and
    differs from an ML score that is not the mean. *)
Theorem C130_between : forall m p data c v ml map,
  library_model m p -> log_concave (em_lv m) (em_cats m) p -> em_lv m = 1%nat -> legal_data (em_cats m) data -> 0 < v ->
  least_loss m None data ml -> least_loss m (Some (normal_prior 1 c (fun _ _ => / v))) data map ->
  forall n x y, nth_error ml n = Some [x] -> nth_error map n = Some [y] ->
  (0 < x -> 0 <= y < x) /\ (x < 0 -> x < y <= 0) /\ (x = 0 -> y = 0).
Proof.
  intros m p data c v ml map Hm HC E1 HD Hv Hml Hmap n x y Ex Ey.
  assert (Hi : 0 < / v) by now apply Rinv_0_lt_compat.
  assert (PR : precision (em_lv m) (fun _ _ => / v)).
  { rewrite E1. split; [reflexivity|]. intros z (d & Hd & Hz). unfold quad. cbn [sumn]. replace d with 0%nat in Hz by lia. assert (0 < z 0%nat * z 0%nat) by nra. replace (0 + (0 + / v * z 0%nat * z 0%nat)) with (/ v * (z 0%nat * z 0%nat)) by ring. now apply Rmult_lt_0_compat. }
  rewrite <- E1 in Hmap. destruct (nth_error data n) as [row|] eqn:En.
  2:{ exfalso. apply nth_error_None in En. assert ((n < length ml)%nat) by (apply nth_error_Some; congruence). destruct Hml as [[L _] _]. lia. }
  destruct (C130_closer m p data c _ ml map Hm HD PR Hml Hmap n row [x] [y] En Ex Ey) as (D & _ & D').
  destruct (least_rows m p None data ml Hm HD Hml n row [x] En Ex) as (_ & HL & M1). destruct (least_rows m p _ data map Hm HD Hmap n row [y] En Ey) as (_ & _ & M2). rewrite E1 in *.
  assert (Q : forall z, distance 1 (fun _ _ => / v) [z] = / v * (z * z)) by (intro z; unfold distance, quad; cbn [sumn nth]; ring).
  rewrite !Q in D, D'. assert (DD : y * y <= x * x) by (apply (Rmult_le_reg_l (/ v)); assumption).
  assert (DS : x <> 0 -> y * y < x * x). { intro Hx. apply (Rmult_lt_reg_l (/ v)); [exact Hi|]. apply D'; [exact HC|]. exists 0%nat. split; [lia|exact Hx]. }
  assert (HP : forall t i k, length t = 1%nat -> (k < nth i (em_cats m) O)%nat -> 0 < p t i k) by (intros; now apply (library_pos m p Hm)).
  destruct (likelihood_touches 1 (em_cats m) p row [0] HP HC eq_refl HL) as (g & [_ G] & _).
  pose proof (G [x] eq_refl) as Gx. pose proof (G [y] eq_refl) as Gy. pose proof (M1 [y] eq_refl) as A1. pose proof (M2 [0] eq_refl) as A2.
  unfold plane in Gx, Gy. cbn [sumn nth] in Gx, Gy. unfold row_target, prior_term, normal_prior, quad in A1, A2. cbn [sumn nth] in A2.
  set (l0 := ln (likelihood p [0] row)) in *. set (lx := ln (likelihood p [x] row)) in *. set (ly := ln (likelihood p [y] row)) in *.
  assert (Sg : (0 < x -> 0 <= y) /\ (x < 0 -> y <= 0)).
  { split; intros Hx; apply Rnot_lt_le; intros Hy; assert (Py : 0 < / v * (y * y)) by (apply Rmult_lt_0_compat; [exact Hi|nra]).
    - assert (l0 < ly) by nra. destruct (Rle_lt_dec 0 (g 0%nat)); nra.
    - assert (l0 < ly) by nra. destruct (Rle_lt_dec 0 (g 0%nat)); nra. }
  destruct Sg as [S1 S2]. split; [|split]; intros Hx.
  - specialize (S1 Hx). specialize (DS ltac:(lra)). split; [exact S1|]. nra.
  - specialize (S2 Hx). specialize (DS ltac:(lra)). split; [|exact S2]. nra.
  - subst x. nra.
Qed.
Print Assumptions C130_between.

(** A respondent who answered nothing gets the mean of the prior, every model. *)
Lemma empty_likelihood p t row : no_answers row -> likelihood p t row = 1.
Proof.
  intros H. unfold likelihood. assert (E : forall (row : list cell) (f : nat -> nat -> R), (forall i, answer (nth i row None) = None) -> rprod (mapi (fun i c => match answer c with None => 1 | Some k => f i k end) row) = 1).
  { clear. induction row as [|c row IH]; intros f H; [reflexivity|]. rewrite mapi_cons. cbn [rprod]. pose proof (H 0%nat) as H0. cbn [nth] in H0. rewrite H0, (IH (fun i => f (S i))); [ring|]. intros i. exact (H (S i)). }
  now apply E.
Qed.
Theorem C130_no_answers : forall m p data c P map,
  library_model m p -> legal_data (em_cats m) data -> precision (em_lv m) P -> least_loss m (Some (normal_prior (em_lv m) c P)) data map ->
  forall n row s, nth_error data n = Some row -> no_answers row -> nth_error map n = Some s -> s = repeat 0 (em_lv m).
Proof.
  intros m p data c P map Hm HD [HS HPD] Hmap n row s En HN Es. set (lv := em_lv m) in *.
  destruct (least_rows m p _ data map Hm HD Hmap n row s En Es) as (Ls & _ & M2). fold lv in Ls, M2. specialize (M2 (repeat 0 lv) (repeat_length _ _)).
  unfold row_target, prior_term, normal_prior in M2. rewrite !empty_likelihood in M2 by exact HN.
  assert (Z : forall d, nth d (repeat 0 lv) 0 = 0) by (intro d; destruct (Nat.lt_ge_cases d lv); [now apply nth_repeat|rewrite nth_overflow; [reflexivity|now rewrite repeat_length]]).
  assert (Q0 : quad lv P (fun d => nth d (repeat 0 lv) 0) = 0).
  { unfold quad. rewrite (sumn_ext lv _ (fun _ => 0)); [apply sumn_0|]. intros d _. rewrite (sumn_ext lv _ (fun _ => 0)); [apply sumn_0|]. intros e _. rewrite !Z. ring. }
  rewrite Q0 in M2. apply nth_error_ext. intros d. destruct (Nat.lt_ge_cases d lv) as [Hd|Hd].
  - rewrite (nth_error_nth_lt s d 0) by lia. rewrite (nth_error_nth_lt (repeat 0 lv) d 0) by (rewrite repeat_length; exact Hd). rewrite Z. f_equal.
    destruct (Req_EM_T (nth d s 0) 0) as [|Hne]; [assumption|]. pose proof (HPD (fun d => nth d s 0) (ex_intro _ d (conj Hd Hne))). lra.
  - rewrite !(proj2 (nth_error_None _ _)) by (rewrite ?repeat_length; lia). reflexivity.
Qed.
Print Assumptions C130_no_answers.

(** Two items of difficulty 1, answered right and wrong: the ML score is 1, and there is a MAP score, between 0 and 1. *)
Definition hard_items : opl := {| opl_items := 2; opl_b := [-1; -1] |}.
Definition hard_data : list (list cell) := [[Some 1%Z; Some 0%Z]].
Example C130_nonvacuous :
  let m := of_sub (opl_sub 0 hard_items) in
  library_model m (opl_p hard_items) /\ log_concave (em_lv m) (em_cats m) (opl_p hard_items) /\ legal_data (em_cats m) hard_data /\
  least_loss m None hard_data [[1]] /\
  (exists y, least_loss m (Some (normal_prior 1 0 (fun _ _ => / 2))) hard_data [[y]] /\ 0 <= y < 1) /\
  no_answers [None; Some (-1)%Z].
Proof.
  intro m. assert (Hm : library_model m (opl_p hard_items)) by (apply lib_opl; cbn; lia).
  assert (HC : log_concave (em_lv m) (em_cats m) (opl_p hard_items)) by exact (opl_log_concave hard_items).
  assert (HD : legal_data (em_cats m) hard_data).
  { constructor; [|constructor]. split; [reflexivity|]. intros i k Hk. right. right. destruct i as [|[|i]]; cbn in Hk; [exists 1%nat|exists 0%nat|destruct i; discriminate]; (split; [now injection Hk as <-|cbn; lia]). }
  assert (V : forall x, likelihood (opl_p hard_items) [x] [Some 1%Z; Some 0%Z] = logistic (x + -1) * (1 - logistic (x + -1))) by (intro x; unfold likelihood; cbn [mapi mapi_from rprod]; unfold answer; change (1 =? -1)%Z with false; change (0 =? -1)%Z with false; cbv iota; unfold opl_p, hard_items; change (Z.to_nat 1) with 1%nat; change (Z.to_nat 0) with 0%nat; cbn [nth Nat.eqb opl_b]; ring).
  assert (L0 : logistic 0 = / 2) by (rewrite logistic_exp, exp_0; lra).
  assert (ML : least_loss m None hard_data [[1]]).
  { split; [split; [reflexivity|constructor; [reflexivity|constructor]]|]. intros th [T1 T2].
    rewrite !(scoring_loss_value m (opl_p hard_items)) by (first [assumption|reflexivity|constructor; [reflexivity|constructor]]).
    eexists. eexists. split; [reflexivity|]. split; [reflexivity|]. cbn [length hard_data sumn nth]. unfold row_target, prior_term.
    destruct th as [|t [|]]; try discriminate. pose proof (Forall_inv T2) as Lt. destruct t as [|x [|]]; try discriminate. cbn [nth].
    apply Ropp_le_contravar. apply Rplus_le_compat_l. rewrite !Rplus_0_r. pose proof (logistic_bounds (x + -1)) as B.
    apply T_Opt.ln_le_iff; rewrite !V; replace (1 + -1) with 0 by ring; rewrite ?L0; [nra|lra|]. pose proof (Rle_0_sqr (logistic (x + -1) - / 2)) as H. unfold Rsqr in H. nra. }
  split; [exact Hm|]. split; [exact HC|]. split; [exact HD|]. split; [exact ML|]. split; [|intros [|[|[|i]]]; reflexivity].
  assert (PR : precision (em_lv m) (fun _ _ => / 2)). { split; [reflexivity|]. intros z (d & Hd & Hz). change (em_lv m) with 1%nat in *. unfold quad. cbn [sumn]. replace d with 0%nat in Hz by lia. pose proof (Rsqr_pos_lt _ Hz). unfold Rsqr in *. lra. }
  destruct (T_Max.C105_map_scores m (opl_p hard_items) _ hard_data 0 _ (slopes_opl 0 hard_items eq_refl ltac:(cbn; lia)) HD PR) as (th & [R1 R2] & HB).
  destruct th as [|t [|]]; try discriminate. pose proof (Forall_inv R2) as Lt. destruct t as [|y [|]]; try discriminate. exists y.
  assert (MAP : least_loss m (Some (normal_prior 1 0 (fun _ _ => / 2))) hard_data [[y]]).
  { split; [split; assumption|]. intros th' Hth'. destruct (list_eq_dec (list_eq_dec Req_EM_T) th' [[y]]) as [->|Hne].
    - rewrite (scoring_loss_value m (opl_p hard_items)) by assumption. eexists. eexists. split; [reflexivity|]. split; [reflexivity|lra].
    - destruct (HB th' Hth' Hne) as (a & b & Ea & Eb & Hab). exists a, b. split; [exact Ea|]. split; [exact Eb|lra]. }
  split; [exact MAP|]. exact (proj1 (C130_between m _ hard_data 0 2 [[1]] [[y]] Hm HC eq_refl HD ltac:(lra) ML MAP 0 1 y eq_refl eq_refl) ltac:(lra)).
Qed.
