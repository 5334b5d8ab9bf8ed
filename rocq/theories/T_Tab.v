(** Property C145: spline models are estimated and scored by the probabilities they report. *)
From Coq Require Import Lra String.
From Verif Require T_Flex.
From Verif Require Import Base BaseFacts RBase RFacts M_Data M_CV M_Logit M_Lik M_Est M_Opt M_Jml M_Mono M_BSpl M_Tab P_Logit P_Lik1 P_Est1 P_Est2 P_Est3 P_Opt3 P_Mono4 P_Mono8 P_BSpl1 P_BSpl2 P_BSpl3 P_BSpl4 P_BSpl5 P_Flex P_Tab T_Mono S_Logit S_Lik S_Est S_Eap S_Mono S_BSpl S_Flex.
Import List.
Local Open Scope R_scope.

(** ** C145 *)
(** MonotoneBSpline without a stored basis (as it is built, and after a fit that ends normally, C84), for any values of its parameters. *)
Theorem C145_monotone : forall nanl cats lv knots degree separate m, (0 < lv)%nat -> cats <> [] -> Forall (fun K => (1 <= K)%nat) cats ->
  separate = "items"%string \/ lv = 1%nat -> same_bspl (bs_init cats lv knots degree separate) m ->
  exists p, reports (bs_probabilities m) lv cats p /\ distributions lv cats p /\ scored_by (bs_model nanl m) p.
Proof.
  intros nanl cats lv knots degree separate m Hlv HC HK Hs Hsame.
  destruct (bs_init_ok cats lv knots degree separate m Hlv HK Hs Hsame) as (Hok & E1 & E2 & _). subst cats lv.
  set (m' := EModel (bs_lv m) (bs_cats m) (fun thetas => Ok (T2 (Wide (bs_items m * bs_max m) (map (fun t => concat (bs_row m t)) thetas)))) (em_ll (bs_model nanl m))).
  exists (logit_p m' (bspline_logit m)).
  assert (HD : distributions (bs_lv m) (bs_cats m) (logit_p m' (bspline_logit m))) by (apply (logits_distribution m' (bspline_logit m)); exact HK).
  assert (L1 : forall t, List.length t = em_lv m' -> List.length (concat (bs_row m t)) = (List.length (em_cats m') * list_max (em_cats m'))%nat) by (intros; apply bs_row_length).
  assert (L2 : forall t i K k, List.length t = em_lv m' -> nth_error (em_cats m') i = Some K -> (k < list_max (em_cats m'))%nat -> nth_error (concat (bs_row m t)) (i * list_max (em_cats m') + k) = Some (if (k <? K)%nat then Fin (bspline_logit m t i k) else NInf)) by (intros; now apply bs_row_at).
  split; [|split; [exact HD|]].
  - intros thetas Hne HF. destruct (bs_probabilities_ok m thetas Hok Hne HF) as (probs & Ep & _ & Ha). exists probs. split; [exact Ep|]. intros r t i K k Hr Hi Hk.
    assert (K <= bs_max m)%nat by (apply list_max_bound; eapply nth_error_In; eauto). rewrite (Ha r t i k K Hr Hi) by lia. destruct (Nat.ltb_spec k K); [|lia]. unfold logit_p. cbn [m' em_cats]. now rewrite (nth_error_nth _ _ O Hi).
  - apply (agree_scored (bs_model nanl m) m'); try reflexivity.
    + intros thetas Hne HF. cbn [bs_model em_forward m']. rewrite bs_forward_rows by auto. cbn [rmap]. now rewrite map_map.
    + apply T_Flex.scored; [| | | |exact HD].
      * eapply (logits_have_probabilities m' nanl (fun t => concat (bs_row m t)) (bspline_logit m)); eauto.
      * eapply (logits_sum m' nanl (fun t => concat (bs_row m t)) (bspline_logit m)); eauto.
      * apply flat_rowwise. apply (logits_flat m' (fun t => concat (bs_row m t))). reflexivity.
      * apply T_Flex.items_positive. exact HC.
Qed.
Print Assumptions C145_monotone.
(** SurprisalSpline, if every item is related to some latent variable. *)
Theorem C145_surprisal : forall nanl m knots, ss_basis m = None -> (0 < ss_lv m)%nat -> ss_cats m <> [] -> Forall (fun K => (1 <= K)%nat) (ss_cats m) ->
  ss_knots m = knot_vector (ss_degree m) knots -> in_order (match knots with Some l => l | None => default_knots end) ->
  (forall i, (i < List.length (ss_cats m))%nat -> exists e, (e < ss_lv m)%nat /\ ss_rel m i e = true) ->
  exists p, reports (ss_probabilities m) (ss_lv m) (ss_cats m) p /\ distributions (ss_lv m) (ss_cats m) p /\ scored_by (ss_model nanl m) p.
Proof.
  intros nanl m knots Hb Hlv HC HK Hkn Ho Hrel.
  set (m' := EModel (ss_lv m) (ss_cats m) (fun thetas => Ok (T3 (Cube (List.length (ss_cats m)) (list_max (ss_cats m)) (some3 (map (ss_row m) thetas))))) (em_ll (ss_model nanl m))).
  assert (V : forall t i K, nth_error (ss_cats m) i = Some K -> exists row, nth_error (ss_row m t) i = Some row /\ List.length row = list_max (ss_cats m) /\ valid_distribution K (list_max (ss_cats m)) (fun k => nth k row 0)).
  { intros t i K Hi. assert (HKM : (1 <= K <= list_max (ss_cats m))%nat) by (rewrite Forall_forall in HK; split; [apply HK; eapply nth_error_In; eauto|apply list_max_bound; eapply nth_error_In; eauto]).
    destruct (Hrel i) as (e & He & Hr); [apply nth_error_Some; congruence|]. unfold ss_row. rewrite nth_error_mapi, Hi. cbn [option_map]. eexists. split; [reflexivity|].
    assert (Hs : 0 < sumn (n_bases (ss_degree m) (ss_knots m)) (basis_at (ss_degree m) (ss_knots m) t e)).
    { unfold basis_at. pose proof (logistic_bounds (nth e t 0)). rewrite Hkn. rewrite (basis_sum (ss_degree m) knots Ho) by lra. lra. }
    destruct (positive_term _ _ Hs) as (b & Hbn & Hbp). apply (C21_forward _ _ _ _ _ _ _ e b); auto.
    intros d0 b0 Hd0 Hb0. unfold basis_at. rewrite Hkn in *. apply (basis_nonneg (ss_degree m) knots Ho). exact Hb0. }
  assert (LT : forall t, List.length (ss_row m t) = List.length (ss_cats m) /\ Forall (fun r => List.length r = list_max (ss_cats m)) (ss_row m t)).
  { intro t. assert (L : List.length (ss_row m t) = List.length (ss_cats m)) by (unfold ss_row; apply BaseFacts.mapi_length). split; [exact L|].
    apply Forall_forall. intros r Hr. apply In_nth_error in Hr as [i Hi]. destruct (nth_error (ss_cats m) i) as [K|] eqn:EK.
    - destruct (V t i K EK) as (row & E & Lr & _). congruence.
    - apply nth_error_None in EK. assert (i < List.length (ss_row m t))%nat by (apply nth_error_Some; congruence). lia. }
  assert (HD : distributions (ss_lv m) (ss_cats m) (table_p (ss_row m))).
  { intros t i K _ Hi. destruct (V t i K Hi) as (row & E & Lr & D1 & D2 & D3 & D4). unfold table_p. rewrite (nth_error_nth _ _ [] E). split; [exact D3|].
    assert (HKM : (K <= list_max (ss_cats m))%nat) by (apply list_max_bound; eapply nth_error_In; eauto).
    rewrite <- D2. symmetry. now apply sumn_truncate. }
  exists (table_p (ss_row m)). split; [|split; [exact HD|]].
  - intros thetas Hne HF. unfold ss_probabilities. rewrite ss_forward_rows by auto. eexists. split; [reflexivity|]. intros r t i K k Hr Hi Hk.
    eapply (table_at m' (ss_row m)) with (K := K); eauto.
  - apply (agree_scored (ss_model nanl m) m'); try reflexivity.
    + intros thetas Hne HF. cbn [ss_model em_forward m']. rewrite ss_forward_rows by auto. reflexivity.
    + apply T_Flex.scored; [| | | |exact HD].
      * eapply (table_have_probabilities m' nanl (ss_row m)); eauto.
      * eapply (table_sum m' nanl (ss_row m)); eauto.
      * eapply (table_rowwise m' (ss_row m)); eauto.
      * apply T_Flex.items_positive. exact HC.
Qed.
Print Assumptions C145_surprisal.
(** A test of three and two categories: the marginal loss of three rows with two missing answers is a number for a monotone and for a surprisal
    spline model. *)
Definition spline_test := bs_init [3;2]%nat 2 None 3 "items".
Definition surprisal_test := {| ss_cats := [3; 2]%nat; ss_lv := 2; ss_degree := 3; ss_knots := knot_vector 3 None;
    ss_rel := fun i d => (i =? d)%nat; ss_coef := fun i d b c => INR b - 1; ss_basis := None |}.
Example C145_nonvacuous : exists v w,
  mml_loss (bs_model (-1) spline_test) [[0;0];[1;-1]] (map (fun w => Some (Fin (ln w))) [1/2;1/2]) (Wide 2 T_Flex.mc_answers) = Ok (Some (Fin v)) /\
  mml_loss (ss_model (-1) surprisal_test) [[0;0];[1;-1]] (map (fun w => Some (Fin (ln w))) [1/2;1/2]) (Wide 2 T_Flex.mc_answers) = Ok (Some (Fin w)).
Proof.
  assert (HK : Forall (fun K => (1 <= K)%nat) [3;2]%nat) by (repeat constructor; lia).
  destruct (C145_monotone (-1) [3;2]%nat 2 None 3 "items" spline_test ltac:(lia) ltac:(discriminate) HK ltac:(now left)) as (p & _ & _ & S1 & _).
  { unfold same_bspl. repeat split; auto. }
  destruct (C145_surprisal (-1) surprisal_test None eq_refl ltac:(cbn; lia) ltac:(discriminate) HK eq_refl) as (p' & _ & _ & S2 & _).
  { intros i j [Hij Hj]. cbn in Hj. destruct i as [|[|[|[|[|i]]]]], j as [|[|[|[|[|j]]]]]; cbn; lra || lia. }
  { intros [|[|i]] Hi; cbn in Hi; [exists 0%nat|exists 1%nat|lia]; cbn; auto. }
  do 2 eexists. split.
  - apply (S1 [[0;0];[1;-1]] [1/2;1/2] T_Flex.mc_answers); [discriminate|discriminate|reflexivity|repeat constructor|repeat constructor; lra|exact T_Flex.mc_legal].
  - apply (S2 [[0;0];[1;-1]] [1/2;1/2] T_Flex.mc_answers); [discriminate|discriminate|reflexivity|repeat constructor|repeat constructor; lra|exact T_Flex.mc_legal].
Qed.
