(** Property C152: EAP scores of models of any class as predictions of the latent variables. *)
From Coq Require Import Lra.
From Verif Require T_Flex T_Betw T_Joint T_MissF T_Pred.
From Verif Require Import Base BaseFacts RBase RFacts M_Data M_Logit M_Lik M_Est M_Mono M_Flex P_Mono4 P_Est2 P_True1 P_Cons1 P_Pred P_Cmp S_Logit S_Lik S_Est S_Eap S_Mono S_True S_Pred S_Flex S_Betw.
Import List.
Local Open Scope R_scope.

Lemma any_predicts m p grid w : distributions (em_lv m) (em_cats m) p -> (forall t, In t grid -> length t = em_lv m) -> grid <> [] -> (forall t, 0 < w t) -> forall d,
  (forall seen, length seen = length (em_cats m) ->
     best_prediction grid w p (em_cats m) seen d (fun row => posterior_mean p grid w row d) /\ calibrated grid w p (em_cats m) seen d (fun row => posterior_mean p grid w row d)) /\
  helped_by_answers grid w p (em_cats m) d (fun row => posterior_mean p grid w row d).
Proof.
  intros Hm Hlen Hg Hw d.
  assert (Hp : forall t row, In t grid -> legal_row (em_cats m) row -> 0 < likelihood p t row) by (intros t row Ht HG; apply (T_Flex.likelihood_positive (em_lv m) (em_cats m)); auto).
  assert (H1 : forall t i, In t grid -> (i < length (em_cats m))%nat -> sumn (nth i (em_cats m) O) (p t i) = 1) by (intros t i Ht Hi; apply (any_total (em_lv m)); auto).
  assert (Hw' : forall t, In t grid -> 0 < w t) by auto.
  set (s := fun row => posterior_mean p grid w row d). split.
  - intros seen HL.
    assert (PY : forall f, squared_error grid w p (em_cats m) seen d f = squared_error grid w p (em_cats m) seen d s + on_population grid w p (em_cats m) seen (fun _ row => (s row - f row) ^ 2)) by exact (pythagoras grid w p (em_cats m) seen Hg Hw' HL Hp d).
    assert (N : forall f, 0 <= on_population grid w p (em_cats m) seen (fun _ row => (s row - f row) ^ 2)) by (intro f; apply population_nonneg; auto; intros; apply pow2_ge_0).
    split.
    + intro other. rewrite (PY other). split; [pose proof (N other); lra|]. intros Hle row Hr. pose proof (N other) as N0.
      assert (Z : on_population grid w p (em_cats m) seen (fun _ row => (s row - other row) ^ 2) = 0) by lra.
      pose proof (population_zero grid w p (em_cats m) seen Hg Hw' HL Hp (fun row => (s row - other row) ^ 2) (fun row => pow2_ge_0 _) Z row Hr) as E. cbv beta in E.
      assert (s row - other row = 0) by (apply Rsqr_0_uniq; unfold Rsqr; rewrite <- E; ring). lra.
    + assert (U : on_population grid w p (em_cats m) seen (fun _ row => s row) = on_population grid w p (em_cats m) seen (fun t _ => nth d t 0)) by exact (unbiased grid w p (em_cats m) seen Hg Hw' HL Hp d).
      split; [exact U|]. split; [exact (uncorrelated grid w p (em_cats m) seen Hg Hw' HL Hp d)|]. rewrite <- U. set (mu := on_population grid w p (em_cats m) seen (fun _ row => s row)).
      pose proof (PY (fun _ => mu)) as Y. unfold squared_error at 1 in Y. rewrite Y. ring.
  - intros seen more HL HM HS. exact (more_answers grid w p (em_cats m) seen more d Hg Hw' HL HM Hp H1 HS).
Qed.

(** ** C152 *)
(** EAP scores of a fitted model of any class: among all functions of the answers the best predictions of the latent variables, in a
    population which is distributed over the grid in proportion to the normal density. *)
Theorem C152_fitted : forall mvn m p a scores logpdf points,
  estimated_by m p -> (em_lv m <= 4)%nat -> al_training a = Some (Some scores) -> scores <> [] ->
  mvn (covariance (em_lv m) scores) = Ok logpdf ->
  let g := match points with Some g => g | None => usual_points (em_lv m) end in (0 < g)%nat ->
  let density := fun t => exp (logpdf t) in
  exists grid score, eap_grid (em_lv m) g scores grid /\
    (forall data, data <> [] -> legal_data (em_cats m) data -> eap_theta_scores mvn m a points (Wide (em_items m) data) = Ok (map (fun row => map (fun d => Some (Fin (score d row))) (seq 0 (em_lv m))) data)) /\
    forall d, (d < em_lv m)%nat ->
      (forall seen, length seen = length (em_cats m) -> best_prediction grid density p (em_cats m) seen d (score d) /\ calibrated grid density p (em_cats m) seen d (score d)) /\
      helped_by_answers grid density p (em_cats m) d (score d).
Proof.
  intros mvn m p a scores logpdf points [HD (_ & _ & S3 & _)] Hlv Ha Hs Hmvn g Hg density. destruct (S3 mvn a scores logpdf points Hlv Ha Hs Hmvn Hg) as (grid & HG & E).
  exists grid, (fun d row => posterior_mean p grid density row d). split; [exact HG|]. split; [exact E|].
  intros d _. apply any_predicts; [exact HD| | |intro; apply exp_pos].
  - destruct (T_MissF.ranges_exist scores Hs) as (lo & hi & HRg). intros t Ht. exact (proj1 (proj1 (proj2 HG lo hi (fun d _ => HRg d) t) Ht)).
  - eapply T_Pred.nonempty_of; [apply HG|exact Hg].
Qed.
Print Assumptions C152_fitted.

(** The same of a model that was never fitted, with its grid from -3 to 3. *)
Theorem C152_unfitted : forall mvn m p logpdf points,
  estimated_by m p -> (em_lv m <= 4)%nat -> mvn (map (map Some) (identity (em_lv m))) = Ok logpdf ->
  let g := match points with Some g => g | None => usual_points (em_lv m) end in (0 < g)%nat ->
  let density := fun t => exp (logpdf t) in
  exists grid score, wide_points (em_lv m) g grid /\
    (forall data, data <> [] -> legal_data (em_cats m) data -> eap_theta_scores mvn m no_algorithm points (Wide (em_items m) data) = Ok (map (fun row => map (fun d => Some (Fin (score d row))) (seq 0 (em_lv m))) data)) /\
    forall d, (d < em_lv m)%nat ->
      (forall seen, length seen = length (em_cats m) -> best_prediction grid density p (em_cats m) seen d (score d) /\ calibrated grid density p (em_cats m) seen d (score d)) /\
      helped_by_answers grid density p (em_cats m) d (score d).
Proof.
  intros mvn m p logpdf points [HD (_ & _ & _ & S4)] Hlv Hmvn g Hg density. destruct (S4 mvn logpdf points Hlv Hmvn Hg) as (grid & HG & E).
  exists grid, (fun d row => posterior_mean p grid density row d). split; [exact HG|]. split; [exact E|].
  intros d _. apply any_predicts; [exact HD| | |intro; apply exp_pos].
  - intros t Ht. exact (proj1 (proj1 (proj2 HG t) Ht)).
  - eapply T_Pred.nonempty_of; [apply HG|exact Hg].
Qed.
Print Assumptions C152_unfitted.

(** Monotone networks, directly: their EAP scores are the best predictions under the probabilities they report. *)
Theorem C152_network : forall nanl cats lv rel hidden key sep neg bounded m0 net,
  mnn_init cats lv rel hidden key sep neg bounded = Ok m0 -> cats <> [] -> Forall (fun K => (1 <= K)%nat) cats -> (0 < lv <= 4)%nat ->
  (forall h, hidden = Some h -> Forall (fun x => (0 < x)%nat) h) ->
  (forall k, key = Some k -> length k = length cats /\ forall i K, nth_error cats i = Some K -> (nth i k O < K)%nat) -> same_mnn m0 net ->
  exists p, reports (mnn_probabilities net) lv cats p /\
  forall mvn a scores logpdf points, al_training a = Some (Some scores) -> scores <> [] -> mvn (covariance lv scores) = Ok logpdf ->
    let g := match points with Some g => g | None => usual_points lv end in (0 < g)%nat ->
    let density := fun t => exp (logpdf t) in
    exists grid score, eap_grid lv g scores grid /\
      (forall data, data <> [] -> legal_data cats data -> eap_theta_scores mvn (mnn_model nanl net) a points (Wide (length cats) data) = Ok (map (fun row => map (fun d => Some (Fin (score d row))) (seq 0 lv)) data)) /\
      forall d, (d < lv)%nat ->
        (forall seen, length seen = length cats -> best_prediction grid density p cats seen d (score d) /\ calibrated grid density p cats seen d (score d)) /\
        helped_by_answers grid density p cats d (score d).
Proof.
  intros nanl cats lv rel hidden key sep neg bounded m0 net E0 HC HK [Hlv Hlv4] Hh Hkey Hs.
  destruct (T_Joint.C149_network nanl _ _ _ _ _ _ _ _ _ _ E0 HC HK Hlv Hh Hkey Hs) as (sb & p & HP & Hl & He & Hr). exists p. split; [exact Hr|].
  assert (Ec : em_cats (mnn_model nanl net) = cats).
  { cbn [mnn_model em_cats]. destruct (mnn_init_ok _ _ _ _ _ _ _ _ _ E0 HC HK Hlv Hh) as (_ & Ec & _). unfold same_mnn in Hs; decompose [and] Hs; congruence. }
  intros mvn a scores logpdf points Ha Hsc Hmvn g Hg density. pose proof (C152_fitted mvn (mnn_model nanl net) p a scores logpdf points He) as Q. cbv zeta in Q. unfold em_items in Q. rewrite Ec, Hl in Q. now apply Q.
Qed.
Print Assumptions C152_network.

(** The network for two multiple choice items of C144, fitted with two training scores: its EAP scores for three points per variable. *)
Definition flat_mvn (_ : list (list (option R))) : result (list R -> R) := Ok (fun t => - (nth 0 t 0 ^ 2 + nth 1 t 0 ^ 2) / 2).
Example C152_nonvacuous : exists net p grid score, T_Flex.mc_net = Ok net /\ reports (mnn_probabilities net) 2 [3;2]%nat p /\ length grid = 9%nat /\
  eap_theta_scores flat_mvn (mnn_model (-1) net) (jml_fitted [[0;2];[1;-1]]) (Some 3%nat) (Wide 2 [[Some 2%Z; Some 0%Z]; [None; Some 1%Z]]) =
    Ok (map (fun row => [Some (Fin (score 0%nat row)); Some (Fin (score 1%nat row))]) [[Some 2%Z; Some 0%Z]; [None; Some 1%Z]]) /\
  best_prediction grid (fun t => exp (- (nth 0 t 0 ^ 2 + nth 1 t 0 ^ 2) / 2)) p [3;2]%nat [true; false] 1 (score 1%nat).
Proof.
  destruct T_Flex.mc_net as [net|e] eqn:E; [|vm_compute in E; discriminate]. pose proof E as E'. unfold T_Flex.mc_net in E'.
  destruct (C152_network (-1) [3;2]%nat 2 None (Some [3;6]%nat) (Some [1;0]%nat) true true true net net E') as (p & Hr & H).
  { discriminate. } { constructor; [lia|constructor; [lia|constructor]]. } { lia. } { intros h Eh. injection Eh as <-. constructor; [lia|constructor; [lia|constructor]]. }
  { intros k Ek. injection Ek as <-. split; [reflexivity|]. intros [|[|i]] K Ei; cbn in Ei; try (injection Ei as <-; cbn; lia). destruct i; discriminate. }
  { apply same_mnn_refl. }
  destruct (H flat_mvn (jml_fitted [[0;2];[1;-1]]) [[0;2];[1;-1]] _ (Some 3%nat) eq_refl ltac:(discriminate) eq_refl ltac:(cbn; lia)) as (grid & score & HG & HE & HB).
  exists net, p, grid, score. split; [reflexivity|]. split; [exact Hr|]. split; [exact (proj1 HG)|]. split.
  - apply HE; [discriminate|]. apply Forall_forall; intros row [<-|[<-|[]]]; split; try reflexivity; intros [|[|i]] c Ec; cbn in Ec; try (destruct i; discriminate); injection Ec as <-;
      first [now left | right; right; first [exists 2%nat; split; [reflexivity|cbn; lia]|exists 1%nat; split; [reflexivity|cbn; lia]|exists 0%nat; split; [reflexivity|cbn; lia]]].
  - exact (proj1 (proj1 (HB 1%nat ltac:(lia)) [true; false] eq_refl)).
Qed.
