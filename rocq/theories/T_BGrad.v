(** Theorems: derivatives of splines, gradients and information of the monotone B-spline model (C100). *)
From Coq Require Import String.
From Verif Require Import Base BaseFacts RBase RFacts M_Logit S_Logit P_Logit P_Logit2 P_Logit4 M_Mono M_Lik M_Est M_Stat S_Stat P_Spline4 P_Mono1 P_Mono8 M_Scale S_Scale P_Pop5 P_Pop6
  M_Info S_Info P_Info1 P_Info2 P_Info3 M_BSpl S_BSpl P_BSpl1 P_BSpl2 P_BSpl3 P_BSpl4 P_Link M_BGrad S_BGrad P_BGrad1 P_BGrad2 T_Scale T_Info.
Import List.
Local Open Scope R_scope.

(** ** C100 *)
(** The derivatives used by the backward pass are the derivatives of the basis functions, at every score that is no knot
    and from degree two on also at a knot given once. *)
Theorem C100_basis : forall degree knots theta b, in_order (user_knots knots) -> smooth_at degree (user_knots knots) theta ->
  let kv := knot_vector degree knots in
  (b < n_bases degree kv)%nat ->
  exists l, nth_error (derivative_row degree kv (logistic theta)) b = Some l /\
    derivable_pt_lim (fun x => nth b (basis_row degree kv x) 0) (logistic theta) l.
Proof.
  intros degree knots theta b HO HS kv Hb. eexists. split; [unfold derivative_row; now rewrite nth_error_map_seq|]. cbn [Nat.add].
  apply (derivable_ext (bbasis (fun j => nth j kv 0) degree b)); [|now apply basis_derivable].
  intro x. symmetry. apply nth_error_nth. unfold basis_row. now rewrite nth_error_map_seq.
Qed.
Print Assumptions C100_basis.
Lemma backward_row degree knots theta g : in_order (user_knots knots) -> smooth_at degree (user_knots knots) theta ->
  let kv := knot_vector degree knots in length g = n_bases degree kv ->
  derivable_pt_lim (fun x => rsum (zip_with Rmult g (basis_row degree kv x))) (logistic theta) (rsum (zip_with Rmult g (derivative_row degree kv (logistic theta)))).
Proof.
  intros HO HS kv Lg.
  assert (E : forall f, rsum (zip_with Rmult g (map f (seq 0 (n_bases degree kv)))) = sumn (n_bases degree kv) (fun b => nth b g 0 * f b)).
  { intro f. apply rsum_index; [rewrite zip_with_length, map_length, seq_length; lia|]. intros b Hb. rewrite nth_error_zip_with, nth_error_map_seq by exact Hb. now rewrite (nth_error_nth_lt g b 0) by lia. }
  unfold derivative_row. rewrite E. apply (derivable_ext (fun x => sumn (n_bases degree kv) (fun b => nth b g 0 * bbasis (fun j => nth j kv 0) degree b x))).
  - intro x. unfold basis_row. now rewrite E.
  - now apply combination_derivable.
Qed.
(** The backward pass returns for every point the derivative of the basis values weighted with the incoming gradient,
    whatever other points and batches there are; and nothing when no gradient is asked for. *)
Theorem C100_backward : forall degree knots thetas grads r theta g, in_order (user_knots knots) ->
  let kv := knot_vector degree knots in
  let xs := map logistic thetas in
  nth_error thetas r = Some theta -> nth_error grads r = Some g -> length g = n_bases degree kv -> smooth_at degree (user_knots knots) theta ->
  (exists out l, basis_backward true degree kv xs grads = Some out /\ (length grads = length thetas -> length out = length thetas) /\
    nth_error out r = Some l /\ derivable_pt_lim (fun x => rsum (zip_with Rmult g (basis_row degree kv x))) (logistic theta) l) /\
  (forall batch q, nth_error batch q = Some grads -> exists outs, basis_backward_batch true degree kv xs batch = Some outs /\ length outs = length batch /\
    nth_error outs q = basis_backward true degree kv xs grads) /\
  basis_backward false degree kv xs grads = None.
Proof.
  intros degree knots thetas grads r theta g HO kv xs Ht Hg Lg HS. split; [|split; [|reflexivity]].
  - eexists _, (rsum (zip_with Rmult g (derivative_row degree kv (logistic theta)))). split; [reflexivity|]. split; [|split].
    + intro HL. rewrite zip_with_length. unfold xs. rewrite map_length. lia.
    + rewrite nth_error_zip_with, Hg. unfold xs. rewrite nth_error_map, Ht. reflexivity.
    + now apply backward_row.
  - intros batch q Hq. eexists. split; [reflexivity|]. split; [apply map_length|]. rewrite nth_error_map, Hq. reflexivity.
Qed.
Print Assumptions C100_backward.
(** Equal weights give the gradient zero: the basis functions always sum to one. *)
Theorem C100_cancel : forall degree knots theta w, in_order (user_knots knots) -> smooth_at degree (user_knots knots) theta ->
  let kv := knot_vector degree knots in
  basis_backward true degree kv [logistic theta] [repeat w (n_bases degree kv)] = Some [0].
Proof.
  intros degree knots theta w HO HS kv. unfold basis_backward. cbn [zip_with]. do 2 f_equal.
  eapply uniqueness_limite; [apply backward_row; [exact HO|exact HS|apply repeat_length]|].
  pose proof (logistic_bounds theta) as HB. apply (derivable_locally _ (fun _ => w) _ 0 (Rmin (logistic theta) (1 - logistic theta))); [apply Rmin_pos; lra| |apply derivable_pt_lim_const].
  intros y Hy. apply Rabs_def2 in Hy. pose proof (Rmin_l (logistic theta) (1 - logistic theta)). pose proof (Rmin_r (logistic theta) (1 - logistic theta)).
  assert (E : rsum (zip_with Rmult (repeat w (n_bases degree kv)) (basis_row degree kv y)) = sumn (n_bases degree kv) (fun b => w * bbasis (fun j => nth j kv 0) degree b y)).
  { unfold basis_row. apply rsum_index; [rewrite zip_with_length, repeat_length, map_length, seq_length; lia|]. intros b Hb. rewrite nth_error_zip_with, nth_error_map_seq, nth_error_repeat_lt by exact Hb. reflexivity. }
  fold kv. rewrite E, sumn_scal. pose proof (basis_sum degree knots HO y ltac:(lra)) as E1. fold kv in E1. rewrite E1. ring.
Qed.
Print Assumptions C100_cancel.
(** A spline of the model has the slope given by these derivatives; it is positive from degree one on. *)
Theorem C100_slope : forall degree knots c theta, in_order (user_knots knots) ->
  let kv := knot_vector degree knots in
  (smooth_at degree (user_knots knots) theta -> derivable_pt_lim (spline_value degree kv c) theta (spline_slope degree kv c theta)) /\
  ((1 <= degree)%nat -> 0 < spline_slope degree kv c theta) /\ (degree = 0%nat -> spline_slope degree kv c theta = 0).
Proof.
  intros degree knots c theta HO kv. split; [intro HS; now apply spline_derivable|]. split; [intro Hp; now apply slope_positive|]. intro Hp. now apply slope_degree_zero.
Qed.
Print Assumptions C100_slope.
(** probability_gradients of a monotone B-spline model: probability times the slope of the logit less its mean. *)
Theorem C100_gradients : forall grad solve cats lv knots degree separate m scales rescale thetas r t,
  (0 < lv)%nat -> Forall (fun K => (1 <= K)%nat) cats -> separate = "items"%string \/ lv = 1%nat -> same_bspl (bs_init cats lv knots degree separate) m ->
  in_order (user_knots knots) -> autograd_exact grad -> rescale = false \/ scales = [] -> Forall (fun t => length t = lv) thetas -> nth_error thetas r = Some t ->
  (forall d, (d < lv)%nat -> smooth_at degree (user_knots knots) (nth d t 0)) ->
  exists gs g, probability_gradients grad solve (bs_table m) (length cats) (list_max cats) lv scales rescale thetas = Ok gs /\ length gs = length thetas /\ nth_error gs r = Some g /\
    forall i k d, (i < length cats)%nat -> (k < list_max cats)%nat -> (d < lv)%nat ->
      let K := nth i cats O in let P := category_probability K (bspline_logit m t i) in
      at3 g i k d = Some (if (k <? K)%nat then P k * (logit_slope m t i k d - category_mean K P (fun j => logit_slope m t i j d)) else 0).
Proof.
  intros grad solve cats lv knots degree separate m scales rescale thetas r t Hlv HC Hs Hm HO HG HP HF Ht HS.
  destruct (bs_init_ok cats lv knots degree separate m Hlv HC Hs Hm) as (Hok & <- & <- & <- & EK & _).
  assert (Lt : length t = bs_lv m) by (rewrite Forall_forall in HF; apply HF; eapply nth_error_In; eauto).
  destruct (C97_gradients grad solve (bs_table m) (length (bs_cats m)) (bs_max m) (bs_lv m) _ scales rescale thetas r t _ (bs_reads m Hok) HG HP HF Ht (bs_partials m knots Hok EK HO t Lt HS))
    as (gs & g & E1 & E2 & E3 & _ & E4).
  exists gs, g. split; [exact E1|]. split; [exact E2|]. split; [exact E3|]. intros i k d Hi Hk Hd K P. rewrite E4 by assumption. reflexivity.
Qed.
Print Assumptions C100_gradients.
(** Information of a monotone B-spline model: for every item the covariance of the slopes of its logits over the categories, for
    the test the sum over the items. *)
Theorem C100_information : forall grad solve cats lv knots degree separate m scales rescale thetas r t,
  (0 < lv)%nat -> Forall (fun K => (1 <= K)%nat) cats -> separate = "items"%string \/ lv = 1%nat -> same_bspl (bs_init cats lv knots degree separate) m ->
  in_order (user_knots knots) -> autograd_exact grad -> rescale = false \/ scales = [] -> Forall (fun t => length t = lv) thetas -> nth_error thetas r = Some t ->
  (forall d, (d < lv)%nat -> smooth_at degree (user_knots knots) (nth d t 0)) ->
  let P := fun i => category_probability (nth i cats O) (bspline_logit m t i) in
  let C := fun i d e => category_covariance (nth i cats O) (P i) (fun k => logit_slope m t i k d) (fun k => logit_slope m t i k e) in
  let inform := model_information grad solve (bs_table m) (length cats) (list_max cats) lv scales rescale None in
  (forall i, (i < length cats)%nat -> item_matrix_is lv (inform true thetas) r i (C i)) /\
  test_matrix_is lv (inform false thetas) r (fun d e => sumn (length cats) (fun i => C i d e)).
Proof.
  intros grad solve cats lv knots degree separate m scales rescale thetas r t Hlv HC Hs Hm HO HG HP HF Ht HS P C inform.
  destruct (bs_init_ok cats lv knots degree separate m Hlv HC Hs Hm) as (Hok & <- & <- & <- & EK & _).
  assert (Lt : length t = bs_lv m) by (rewrite Forall_forall in HF; apply HF; eapply nth_error_In; eauto).
  pose proof (bs_partials m knots Hok EK HO t Lt HS) as HD.
  assert (HU : supported (bs_lv m) (length (bs_cats m)) (bs_max m) (soft (bs_cats m) (bspline_logit m)) t (bs_partial m t))
    by (apply (soft_supported (bs_max m) (bs_lv m) (bs_cats m) (bspline_logit m) (fun i k d => logit_slope m t i k d) (bs_bounds m Hok))).
  assert (HFi : forall i d e, (i < length (bs_cats m))%nat -> fisher (bs_max m) (soft (bs_cats m) (bspline_logit m) t i) (bs_partial m t i) d e = C i d e)
    by (intros i d e Hi; apply (soft_fisher (bs_max m) (bs_cats m) (bspline_logit m) (fun i k d => logit_slope m t i k d) (bs_bounds m Hok) t i d e Hi)).
  split.
  - intros i Hi. eapply matrix_ext; [exact (plain_item grad solve (bs_table m) _ (bs_max m) _ _ (bs_reads m Hok) HG scales rescale HP thetas HF r t Ht _ HD HU i Hi)|].
    intros d e _ _. now apply HFi.
  - eapply test_ext; [exact (plain_test grad solve (bs_table m) _ (bs_max m) _ _ (bs_reads m Hok) HG scales rescale HP thetas HF r t Ht _ HD HU)|].
    intros d e _ _. apply sumn_ext. intros i Hi. now apply HFi.
Qed.
Print Assumptions C100_information.
(** With splines shared by the categories this is the variance of the item score times the slopes of the splines. *)
Theorem C100_shared : forall m t i d e, bs_by_item m = true ->
  let s := fun d => spline_slope (bs_degree m) (bs_knots m) (shared_increment m d i) (nth d t 0) in
  let K := nth i (bs_cats m) O in let P := category_probability K (bspline_logit m t i) in
  category_covariance K P (fun k => logit_slope m t i k d) (fun k => logit_slope m t i k e) = s d * s e * category_covariance K P INR INR.
Proof.
  intros m t i d e Hb s K P. unfold logit_slope. rewrite Hb. apply covariance_scaled.
Qed.
Print Assumptions C100_shared.
(** With degree one the basis function that peaks at a knot has no derivative there: the restriction to degree two is
    needed. *)
Theorem C100_corner : forall knots j theta l, (forall i j, (i < j < length (user_knots knots))%nat -> nth i (user_knots knots) 0 < nth j (user_knots knots) 0) ->
  nth_error (user_knots knots) j = Some theta -> ~ derivable_pt_lim (fun x => nth (S j) (basis_row 1 (knot_vector 1 knots) x) 0) (logistic theta) l.
Proof.
  intros knots j theta l HO Hj. assert (Hlt : (j < length (user_knots knots))%nat) by (apply nth_error_Some; congruence). set (kv := knot_vector 1 knots).
  assert (HN : (S j < n_bases 1 kv)%nat) by (unfold kv; rewrite n_bases_knots; lia). assert (Hjt : nth j (user_knots knots) 0 = theta) by (now apply nth_error_nth).
  assert (E : kseq kv (S (S j)) = logistic theta).
  { unfold kv. rewrite kseq_knots. destruct (Nat.ltb_spec (S (S j)) (1 + 1)); [lia|]. destruct (Nat.ltb_spec (S (S j)) (1 + 1 + length (user_knots knots))); [|lia].
    replace (S (S j) - (1 + 1))%nat with j by lia. now rewrite Hjt. }
  intro D. pose proof (logistic_bounds theta) as HB. apply (hat_corner (kseq kv) (S j) l).
  - rewrite E. unfold kv. rewrite kseq_knots. destruct (Nat.ltb_spec (S j) (1 + 1)) as [H|H]; [lra|]. destruct (Nat.ltb_spec (S j) (1 + 1 + length (user_knots knots))); [|lia].
    apply logistic_incr. rewrite <- Hjt. apply HO. lia.
  - rewrite E. unfold kv. rewrite kseq_knots. destruct (Nat.ltb_spec (S (S (S j))) (1 + 1)) as [H|H]; [lia|]. destruct (Nat.ltb_spec (S (S (S j))) (1 + 1 + length (user_knots knots))); [|lra].
    apply logistic_incr. rewrite <- Hjt. apply HO. lia.
  - rewrite E. apply (derivable_ext (fun x => nth (S j) (basis_row 1 kv x) 0)); [|exact D]. intro x.
    pose proof (B_kseq 1 knots x (S j) HN) as EB. fold kv in EB. rewrite <- EB. apply nth_error_nth. unfold basis_row. rewrite nth_error_map_seq by exact HN. reflexivity.
Qed.
Print Assumptions C100_corner.
(** A cubic model with the default knots, evaluated at the middle knot. *)
Example C100_nonvacuous : let m := bs_init [3; 2]%nat 1 None 3 "items" in
  exists grad, autograd_exact grad /\ test_matrix_is 1 (model_information grad (fun _ _ => Err RuntimeError) (bs_table m) 2 3 1 [] true None false [[0]; [3]]) 0
    (fun d e => sumn 2 (fun i => category_covariance (nth i [3; 2]%nat O) (category_probability (nth i [3; 2]%nat O) (bspline_logit m [0] i)) (fun k => logit_slope m [0] i k d) (fun k => logit_slope m [0] i k e))).
Proof.
  intro m. destruct autograd_exists as [grad HG]. exists grad. split; [exact HG|].
  apply (C100_information grad (fun _ _ => Err RuntimeError) [3; 2]%nat 1 None 3 "items" m [] true [[0]; [3]] 0 [0]); auto.
  - unfold same_bspl. repeat split; reflexivity.
  - intros i j [Hij Hj]. cbn in Hj. destruct i as [|[|[|[|[|i]]]]], j as [|[|[|[|[|j]]]]]; cbn; lra || lia.
  - intros d Hd. assert (d = 0%nat) by lia. subst d. right. split; [lia|]. cbn [nth user_knots].
    assert (U : forall i, nth_error default_knots i = Some 0 -> i = 2%nat).
    { intros i Hi. unfold default_knots in Hi. destruct i as [|[|[|[|[|i]]]]]; cbn in Hi; try reflexivity; try (injection Hi as Hi; lra). destruct i; discriminate. }
    intros i j Hi Hj. now rewrite (U i Hi), (U j Hj).
Qed.
