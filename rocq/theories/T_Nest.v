(** Properties C101 and C102: models that contain one another, and parameters fixed by probabilities. *)
From Verif Require Import Base BaseFacts RBase RFacts M_Logit S_Logit P_Logit P_Logit2 M_Lik S_Nest P_Nest1 P_Nest2 P_Nest3.
Import List.
Local Open Scope R_scope.

(** ** C101 *)
(** The 1PL is the 2PL with unit slopes. *)
Theorem C101_one_parameter : forall m thetas, length (opl_b m) = opl_items m -> (0 < opl_items m)%nat -> Forall (fun t => length t = 1%nat) thetas ->
  tpl_wf (opl_as_tpl m) /\ opl_probabilities m (map (fun t => nth 0 t 0) thetas) = tpl_probabilities (opl_as_tpl m) thetas.
Proof. intros m thetas Hb Hn HF. split; [now apply opl_as_tpl_wf|now apply opl_in_tpl]. Qed.
Print Assumptions C101_one_parameter.

(** With two categories per item the partial credit and the graded response model, holding the same
    parameters as a 2PL, give the 2PL's probabilities. *)
Theorem C101_two_categories : forall m thetas, tpl_wf m -> (0 < tpl_items m)%nat -> Forall (fun t => length t = tpl_lv m) thetas ->
  poly_wf (tpl_as_poly m) /\
  gpc_probabilities (tpl_as_poly m) thetas = tpl_probabilities m thetas /\
  some3 (grm_probabilities (tpl_as_poly m) thetas) = tpl_probabilities m thetas.
Proof. intros m thetas Hwf Hn HF. split; [now apply tpl_as_poly_wf|]. split; [now apply tpl_in_gpc|now apply tpl_in_grm]. Qed.
Print Assumptions C101_two_categories.

(** The nominal model needs half of the slopes and intercepts. *)
Theorem C101_two_nominal : forall m thetas, tpl_wf m -> (0 < tpl_items m)%nat -> Forall (fun t => length t = tpl_lv m) thetas ->
  nrm_wf (tpl_as_nrm m) /\ nrm_probabilities (tpl_as_nrm m) thetas = tpl_probabilities m thetas.
Proof. intros m thetas Hwf Hn HF. split; [now apply tpl_as_nrm_wf|now apply tpl_in_nrm]. Qed.
Print Assumptions C101_two_nominal.

(** Every partial credit model is a nominal model. *)
Theorem C101_nominal_credit : forall m thetas, poly_wf m -> (0 < p_items m)%nat -> Forall (fun t => length t = p_lv m) thetas ->
  nrm_wf (gpc_as_nrm m) /\ nrm_probabilities (gpc_as_nrm m) thetas = gpc_probabilities m thetas.
Proof. intros m thetas Hwf Hn HF. split; [now apply gpc_as_nrm_wf|now apply gpc_in_nrm]. Qed.
Print Assumptions C101_nominal_credit.

(** The 3PL lies above the 2PL with the same slopes and intercepts, by less than the guessing probability. *)
Theorem C101_three_parameter : forall m thetas r t i, thpl_wf m -> (0 < thpl_items m)%nat -> Forall (fun t => length t = thpl_lv m) thetas ->
  nth_error thetas r = Some t -> (i < thpl_items m)%nat ->
  exists p2 p3 A d C c,
    thpl_item_parameters m false = Ok (A, d, C) /\ tpl_item_parameters (thpl_core m) false = Ok (A, d) /\ nth_error C i = Some c /\
    at3 (tpl_probabilities (thpl_core m) thetas) r i 1 = Some (Some p2) /\ at3 (thpl_probabilities m thetas) r i 1 = Some p3 /\
    p3 = c + (1 - c) * p2 /\ 0 < p3 - p2 < c.
Proof.
  intros m thetas r t i Hwf Hn HF Ht Hi. destruct (thpl_over_tpl m thetas r t i Hwf Hn HF Ht Hi) as (p2 & p3 & c & H1 & H2 & H3 & H4 & H5).
  exists p2, p3, (weight_matrix (thpl_free m) (thpl_lv m) (thpl_w m)), (thpl_b m), (map logistic (thpl_g m)), c.
  split; [reflexivity|]. split; [reflexivity|]. split; [exact H3|]. split; [exact H1|]. split; [exact H2|]. split; [exact H4|exact H5].
Qed.
Print Assumptions C101_three_parameter.

(** Newly constructed models already agree. *)
Theorem C101_new_models : forall n lv rel m g thetas, (0 < n)%nat -> (0 < lv)%nat ->
  tpl_init n lv rel = Ok m -> gpc_init (repeat 2%nat n) lv rel = Ok g -> Forall (fun t => length t = lv) thetas ->
  gpc_probabilities g thetas = tpl_probabilities m thetas.
Proof.
  intros n lv rel m g thetas Hn Hlv Hm Hg HF. destruct (tpl_init_wf n lv rel m Hlv Hm) as [Hwf Hi].
  assert (E : g = tpl_as_poly m).
  { unfold tpl_init in Hm. unfold gpc_init in Hg. rewrite repeat_length in Hg. destruct (relationships n lv rel) as [free|]; [|discriminate]. cbn [rmap] in *.
    injection Hm as <-. injection Hg as <-. unfold tpl_as_poly. rewrite Hi. cbn [tpl_lv tpl_free tpl_w tpl_b]. f_equal.
    assert (list_sum (repeat 2%nat n) = 2 * n)%nat by (clear; induction n as [|n IH]; [reflexivity|]; change (list_sum (repeat 2%nat (S n))) with (2 + list_sum (repeat 2%nat n))%nat; lia). f_equal. lia. }
  subst g. apply tpl_in_gpc; [exact Hwf|lia|]. assert (L : tpl_lv m = lv) by (unfold tpl_init in Hm; destruct (relationships n lv rel); [injection Hm as <-; reflexivity|discriminate]). now rewrite L.
Qed.
Print Assumptions C101_new_models.

Definition nest_2pl : tpl := {| tpl_lv := 2; tpl_free := [[true; false]; [true; true]]; tpl_w := [2; -1; 3]; tpl_b := [1; -2] |}.
Definition nest_gpc : poly := {| p_cats := [3; 2]%nat; p_lv := 2; p_free := [[true; false]; [true; true]]; p_w := [2; -1; 3]; p_b := [1; -2; 5] |}.
Definition nest_3pl : thpl := {| thpl_lv := 2; thpl_free := [[true; false]; [true; true]]; thpl_w := [2; -1; 3]; thpl_b := [1; -2]; thpl_g := [-1; -3] |}.
Lemma nest_2pl_wf : tpl_wf nest_2pl.
Proof. split; [cbn; lia|]. split; [constructor; [reflexivity|constructor; [reflexivity|constructor]]|]. split; reflexivity. Qed.
Lemma nest_gpc_wf : poly_wf nest_gpc.
Proof.
  split; [cbn; lia|]. split; [constructor; [lia|constructor; [lia|constructor]]|]. split; [reflexivity|].
  split; [constructor; [reflexivity|constructor; [reflexivity|constructor]]|]. split; reflexivity.
Qed.
Lemma nest_3pl_wf : thpl_wf nest_3pl.
Proof. split; [cbn; lia|]. split; [constructor; [reflexivity|constructor; [reflexivity|constructor]]|]. split; [reflexivity|]. split; reflexivity. Qed.
Definition nest_thetas : list (list R) := [[1; -1]; [0; 2]].
Lemma nest_thetas_width : Forall (fun t => length t = 2%nat) nest_thetas.
Proof. constructor; [reflexivity|constructor; [reflexivity|constructor]]. Qed.
Example C101_nonvacuous :
  length (opl_b {| opl_items := 2; opl_b := [1; -1] |}) = 2%nat /\
  (tpl_wf nest_2pl /\ (0 < tpl_items nest_2pl)%nat /\ Forall (fun t => length t = tpl_lv nest_2pl) nest_thetas) /\
  nrm_w (tpl_as_nrm nest_2pl) = [2 / 2; -1 / 2; 3 / 2] /\
  (poly_wf nest_gpc /\ (0 < p_items nest_gpc)%nat /\ Forall (fun t => length t = p_lv nest_gpc) nest_thetas) /\
  (thpl_wf nest_3pl /\ (0 < thpl_items nest_3pl)%nat) /\
  (exists m, tpl_init 2 2 (Some [[true; false]; [true; true]]) = Ok m) /\ (exists g, gpc_init (repeat 2%nat 2) 2 (Some [[true; false]; [true; true]]) = Ok g).
Proof.
  split; [reflexivity|]. split; [split; [exact nest_2pl_wf|split; [cbn; lia|exact nest_thetas_width]]|]. split; [reflexivity|].
  split; [split; [exact nest_gpc_wf|split; [cbn; lia|exact nest_thetas_width]]|]. split; [split; [exact nest_3pl_wf|cbn; lia]|]. split; eexists; reflexivity.
Qed.
Example C101_nonvacuous_probabilities :
  gpc_probabilities (tpl_as_poly nest_2pl) nest_thetas = tpl_probabilities nest_2pl nest_thetas /\ nrm_probabilities (gpc_as_nrm nest_gpc) nest_thetas = gpc_probabilities nest_gpc nest_thetas /\
  nrm_b (gpc_as_nrm nest_gpc) <> p_b nest_gpc.
Proof.
  split; [apply (C101_two_categories nest_2pl); [exact nest_2pl_wf|cbn; lia|exact nest_thetas_width]|].
  split; [apply (C101_nominal_credit nest_gpc); [exact nest_gpc_wf|cbn; lia|exact nest_thetas_width]|].
  intro E. apply (f_equal (fun l => nth 2 l 0)) in E. cbn in E. lra.
Qed.

(** ** C102 *)
(** Two models of the same family give the same probabilities everywhere exactly when item_parameters
    reports the same table for both. *)
Theorem C102_one_parameter : forall m m', length (opl_b m) = opl_items m -> length (opl_b m') = opl_items m' -> (0 < opl_items m)%nat -> opl_items m = opl_items m' ->
  ((forall thetas, opl_probabilities m thetas = opl_probabilities m' thetas) <-> opl_item_parameters m = opl_item_parameters m').
Proof. exact opl_identified. Qed.
Print Assumptions C102_one_parameter.

Theorem C102_two_parameter : forall m m', tpl_wf m -> tpl_wf m' -> (0 < tpl_items m)%nat -> tpl_items m = tpl_items m' -> tpl_lv m = tpl_lv m' ->
  ((forall thetas, Forall (fun t => length t = tpl_lv m) thetas -> tpl_probabilities m thetas = tpl_probabilities m' thetas) <->
   tpl_item_parameters m false = tpl_item_parameters m' false).
Proof. exact tpl_identified. Qed.
Print Assumptions C102_two_parameter.

(** For the 3PL every item needs a latent variable it depends on. *)
Theorem C102_three_parameter : forall m m', thpl_wf m -> thpl_wf m' -> thpl_items m = thpl_items m' -> thpl_lv m = thpl_lv m' ->
  (forall i, (i < thpl_items m)%nat -> exists d, (d < thpl_lv m)%nat /\ slope (thpl_free m) (thpl_w m) i d <> 0) ->
  ((forall thetas, Forall (fun t => length t = thpl_lv m) thetas -> thpl_probabilities m thetas = thpl_probabilities m' thetas) <->
   thpl_item_parameters m false = thpl_item_parameters m' false).
Proof. exact thpl_identified. Qed.
Print Assumptions C102_three_parameter.

Theorem C102_generalized_credit : forall m m', poly_wf m -> poly_wf m' -> (0 < p_items m)%nat -> p_cats m = p_cats m' -> p_lv m = p_lv m' -> Forall (fun K => (2 <= K)%nat) (p_cats m) ->
  ((forall thetas, Forall (fun t => length t = p_lv m) thetas -> gpc_probabilities m thetas = gpc_probabilities m' thetas) <->
   gpc_item_parameters m false = gpc_item_parameters m' false).
Proof. exact gpc_identified. Qed.
Print Assumptions C102_generalized_credit.

Theorem C102_graded : forall m m', poly_wf m -> poly_wf m' -> (0 < p_items m)%nat -> p_cats m = p_cats m' -> p_lv m = p_lv m' -> Forall (fun K => (2 <= K)%nat) (p_cats m) ->
  ((forall thetas, Forall (fun t => length t = p_lv m) thetas -> grm_probabilities m thetas = grm_probabilities m' thetas) <->
   grm_item_parameters m false = grm_item_parameters m' false).
Proof. exact grm_identified. Qed.
Print Assumptions C102_graded.

Theorem C102_nominal : forall m m', nrm_wf m -> nrm_wf m' -> (0 < length (nrm_cats m))%nat -> nrm_cats m = nrm_cats m' -> nrm_lv m = nrm_lv m' ->
  ((forall thetas, Forall (fun t => length t = nrm_lv m) thetas -> nrm_probabilities m thetas = nrm_probabilities m' thetas) <->
   nrm_item_parameters m = nrm_item_parameters m').
Proof. exact nominal_identified. Qed.
Print Assumptions C102_nominal.

(** The conditions are needed: an item of one category says nothing about its slope, and in a 3PL whose
    slope is zero the intercept and the guessing probability cannot be told apart. *)
Definition flat_a : thpl := {| thpl_lv := 1; thpl_free := [[true]]; thpl_w := [0]; thpl_b := [0]; thpl_g := [0] |}.
Definition flat_b : thpl := {| thpl_lv := 1; thpl_free := [[true]]; thpl_w := [0]; thpl_b := [ln 2]; thpl_g := [- ln 3] |}.
Theorem C102_conditions_needed :
  ((forall thetas, Forall (fun t => length t = 1%nat) thetas -> thpl_probabilities flat_a thetas = thpl_probabilities flat_b thetas) /\
   thpl_item_parameters flat_a false <> thpl_item_parameters flat_b false) /\
  (forall a b thetas, Forall (fun t => length t = 1%nat) thetas ->
     gpc_probabilities {| p_cats := [1%nat]; p_lv := 1; p_free := [[true]]; p_w := [a]; p_b := [] |} thetas =
     gpc_probabilities {| p_cats := [1%nat]; p_lv := 1; p_free := [[true]]; p_w := [b]; p_b := [] |} thetas).
Proof.
  split; [split|].
  - intros thetas HF. unfold thpl_probabilities, thpl_forward, thpl_probs. rewrite !map_map. apply map_ext_in. intros t Ht. rewrite Forall_forall in HF. specialize (HF t Ht). destruct t as [|x [|]]; try discriminate.
    assert (E : logistic (0 * x + 0 + 0) * (1 - logistic 0) + logistic 0 = logistic (0 * x + 0 + ln 2) * (1 - logistic (- ln 3)) + logistic (- ln 3)).
    { replace (0 * x + 0 + 0) with 0 by ring. replace (0 * x + 0 + ln 2) with (ln 2) by ring. unfold logistic. rewrite Ropp_involutive, Ropp_0, exp_0, exp_Ropp, !exp_ln by lra. field. }
    replace (x * 0 + 0) with (0 * x + 0) in * by ring. unfold weight_matrix, dot. cbn. replace (x * 0 + 0 + 0) with (0 * x + 0 + 0) by ring. replace (x * 0 + 0 + ln 2) with (0 * x + 0 + ln 2) by ring. now rewrite E.
  - intro E. assert (E2 : [0] = [ln 2]) by (unfold thpl_item_parameters in E; cbn [andb flat_a flat_b thpl_b] in E; congruence). injection E2 as E2. pose proof ln_lt_2. lra.
  - intros a b thetas HF. reflexivity.
Qed.
Print Assumptions C102_conditions_needed.

Example C102_nonvacuous :
  (forall i, (i < thpl_items nest_3pl)%nat -> exists d, (d < thpl_lv nest_3pl)%nat /\ slope (thpl_free nest_3pl) (thpl_w nest_3pl) i d <> 0) /\
  Forall (fun K => (2 <= K)%nat) (p_cats nest_gpc) /\
  (let other := {| p_cats := [3; 2]%nat; p_lv := 2; p_free := [[true; true]; [true; true]]; p_w := [2; 0; -1; 3]; p_b := [1; -2; 5] |} in
   poly_wf other /\ gpc_item_parameters nest_gpc false = gpc_item_parameters other false /\ p_w other <> p_w nest_gpc) /\
  (let other := {| p_cats := [3; 2]%nat; p_lv := 2; p_free := [[true; false]; [true; true]]; p_w := [2; -1; 4]; p_b := [1; -2; 5] |} in
   poly_wf other /\ gpc_item_parameters nest_gpc false <> gpc_item_parameters other false).
Proof.
  split; [|split; [|split]].
  - intros [|[|i]] Hi; [| |cbn in Hi; lia]; exists O; (split; [cbn; lia|]); cbn; lra.
  - constructor; [lia|constructor; [lia|constructor]].
  - cbv zeta. split; [|split; [|intro E; discriminate]].
    + split; [cbn; lia|]. split; [constructor; [lia|constructor; [lia|constructor]]|]. split; [reflexivity|]. split; [constructor; [reflexivity|constructor; [reflexivity|constructor]]|]. split; reflexivity.
    + reflexivity.
  - cbv zeta. split.
    + split; [cbn; lia|]. split; [constructor; [lia|constructor; [lia|constructor]]|]. split; [reflexivity|]. split; [constructor; [reflexivity|constructor; [reflexivity|constructor]]|]. split; reflexivity.
    + intro E. apply (f_equal (fun x => nth 1 (nth 1 (fst x) []) 0)) in E. cbn in E. lra.
Qed.
