(** Proofs: architecture of new models, sessions with a precomputed basis, surprisal and nested spline models. *)
From Coq Require Import String.
From Verif Require Import Base BaseFacts RBase RFacts M_Logit S_Logit M_Mono S_Mono M_Scale M_BSpl S_BSpl P_Logit P_Logit2 P_Logit4 P_Mono1 P_Mono8 P_BSpl1 P_BSpl2 P_BSpl3.
Import List.
Local Open Scope R_scope.

Lemma bs_init_ok cats lv knots degree separate m : (0 < lv)%nat -> Forall (fun K => (1 <= K)%nat) cats ->
  separate = "items"%string \/ lv = 1%nat -> same_bspl (bs_init cats lv knots degree separate) m ->
  bs_ok m /\ bs_cats m = cats /\ bs_lv m = lv /\ bs_degree m = degree /\ bs_knots m = knot_vector degree knots /\ bs_by_item m = String.eqb separate "items".
Proof.
  intros Hlv HF Hs (E1 & E2 & E3 & E4 & E5 & E6 & E7 & E8). cbn [bs_init bs_cats bs_lv bs_degree bs_knots bs_by_item bs_basis bs_coef bs_bias] in *.
  split; [|auto]. unfold bs_ok, bs_n. rewrite E1, E2, E3, E4, E5, E8. split; [auto|]. split; [auto|]. split; [|split; [|split; [|reflexivity]]].
  - destruct Hs as [->| ->]; [left; reflexivity|right; reflexivity].
  - intro H. rewrite E6, H, repeat_length. reflexivity.
  - rewrite E7, repeat_length. now apply ctrue_free_bias.
Qed.

(** ** Sessions *)
Lemma mml_spline_done n points train m : fst (mml_spline n points train m) = Ok tt ->
  bs_basis (snd (mml_spline n points train m)) = None.
Proof.
  unfold mml_spline. destruct (precompute _ m) as [m1|e]; [|discriminate]. destruct (train m1) as [p [e|]]; [discriminate|reflexivity].
Qed.
Definition same_architecture (m m' : bspl) : Prop :=
  bs_cats m' = bs_cats m /\ bs_lv m' = bs_lv m /\ bs_degree m' = bs_degree m /\ bs_knots m' = bs_knots m /\ bs_by_item m' = bs_by_item m.
Lemma spline_step_architecture o m : same_architecture m (snd (spline_step o m)).
Proof.
  unfold same_architecture. destruct o as [n points train|p]; [|repeat split; reflexivity]. cbn [spline_step]. unfold mml_spline, precompute.
  destruct (spline_basis _ _ _ _) as [b|e]; cbn [rmap]; [|repeat split; reflexivity]. destruct (train _) as [p [e|]]; repeat split; reflexivity.
Qed.
Lemma spline_run_architecture ops : forall m, same_architecture m (snd (spline_run ops m)).
Proof.
  induction ops as [|o ops IH]; intro m; [unfold same_architecture; repeat split; reflexivity|]. cbn [spline_run].
  pose proof (spline_step_architecture o m) as H. destruct (spline_step o m) as [r m']. cbn [snd] in H. specialize (IH m').
  destruct (spline_run ops m') as [rs m'']. cbn [snd] in *. unfold same_architecture in *. intuition congruence.
Qed.
Lemma spline_run_app a b m : spline_run (a ++ b) m =
  (fst (spline_run a m) ++ fst (spline_run b (snd (spline_run a m))), snd (spline_run b (snd (spline_run a m)))).
Proof.
  revert m. induction a as [|o a IH]; intro m; cbn [app spline_run]; [cbn [fst snd app]; now destruct (spline_run b m)|].
  destruct (spline_step o m) as [r m']. rewrite IH. destruct (spline_run a m') as [rs m'']. cbn [fst snd]. destruct (spline_run b m''); reflexivity.
Qed.
(** What is held is decided by the last marginal fit that got as far as computing the basis. *)
Lemma spline_run_completed ops : forall m, bs_basis m = None ->
  Forall (fun r => r = Ok tt) (fst (spline_run ops m)) -> bs_basis (snd (spline_run ops m)) = None.
Proof.
  induction ops as [|o ops IH]; intros m Hm HF; [exact Hm|]. cbn [spline_run] in *. destruct (spline_step o m) as [r m'] eqn:E.
  specialize (IH m'). destruct (spline_run ops m') as [rs m'']. cbn [fst snd] in *. inversion HF as [|? ? Hr HF']. subst. apply IH; auto.
  destruct o as [n points train|p]; cbn [spline_step] in E.
  - pose proof (mml_spline_done n points train m) as H. rewrite E in H. now apply H.
  - injection E as <-. exact Hm.
Qed.
Lemma repeat_interleave_forall {A} (P : A -> Prop) k l : Forall P l -> Forall P (repeat_interleave k l).
Proof.
  intro H. unfold repeat_interleave. apply Forall_forall. intros x Hx. apply in_flat_map in Hx as (y & Hy & Hx). apply repeat_spec in Hx. subst. rewrite Forall_forall in H. auto.
Qed.
Lemma mml_spline_failed n points train m e : (0 < bs_lv m)%nat -> (0 < n)%nat -> points <> [] -> Forall (fun t => length t = bs_lv m) points ->
  fst (mml_spline n points train m) = Err e ->
  exists basis, spline_basis (bs_lv m) (bs_degree m) (bs_knots m) (repeat_interleave n points) = Ok basis /\
    length (nth 0 basis []) = (length points * n)%nat /\
    bs_basis (snd (mml_spline n points train m)) = Some basis.
Proof.
  intros Hlv Hn Hp HF. assert (Hne : repeat_interleave n points <> []).
  { intro E. apply (f_equal (@length _)) in E. rewrite repeat_interleave_length in E. destruct points; [congruence|]. cbn [length] in E. nia. }
  destruct (spline_basis_ok (bs_lv m) (bs_degree m) (bs_knots m) _ Hlv Hne (repeat_interleave_forall _ n points HF)) as (basis & Eb & Hl & _).
  unfold mml_spline, precompute. rewrite Eb. cbn [rmap]. intro H. exists basis. split; [reflexivity|]. split; [now rewrite Hl, repeat_interleave_length|].
  destruct (train _) as [p [e'|]]; [reflexivity|discriminate].
Qed.
Lemma spline_run_held ops basis : forall m, bs_basis m = Some basis ->
  Forall (fun o => match o with SetParameters _ => True | MmlFit _ _ _ => False end) ops -> bs_basis (snd (spline_run ops m)) = Some basis.
Proof.
  induction ops as [|o ops IH]; intros m Hm HF; [exact Hm|]. inversion HF as [|? ? Ho HF']. subst. destruct o as [? ? ?|p]; [contradiction|].
  cbn [spline_run spline_step]. specialize (IH (with_parameters p m) Hm HF'). destruct (spline_run ops (with_parameters p m)). exact IH.
Qed.
Lemma held_evaluate m basis theta : bs_basis m = Some basis -> bs_forward m theta = bs_evaluate m basis.
Proof. intro H. unfold bs_forward. rewrite H. reflexivity. Qed.

(** ** Surprisal spline model *)
Lemma ss_forward_ok m theta : ss_basis m = None -> (0 < ss_lv m)%nat -> theta <> [] -> Forall (fun t => length t = ss_lv m) theta ->
  exists out, ss_forward m theta = Ok out /\ length out = length theta /\
    forall r t i K, nth_error theta r = Some t -> nth_error (ss_cats m) i = Some K ->
      exists B, (forall d b, (d < ss_lv m)%nat -> (b < n_bases (ss_degree m) (ss_knots m))%nat ->
                   B d b = bbasis (fun j => nth j (ss_knots m) 0) (ss_degree m) b (logistic (nth d t 0))) /\
        at2 out r i = Some (surprisal_probabilities (surprisal (ss_lv m) (n_bases (ss_degree m) (ss_knots m)) (list_max (ss_cats m)) K (ss_rel m i) B (ss_coef m i))).
Proof.
  intros Hb Hlv Hne HF. destruct (spline_basis_ok (ss_lv m) (ss_degree m) (ss_knots m) theta Hlv Hne HF) as (basis & Eb & Hl & Hv).
  unfold ss_forward. rewrite Hb, Eb. cbn [rmap]. eexists. split; [reflexivity|]. unfold ss_evaluate. rewrite Hl. split; [now rewrite map_length, seq_length|].
  intros r t i K Hr Hi. exists (fun d b => nth b (nth r (nth d basis []) []) 0). split; [intros d b Hd Hb'; now apply Hv|].
  unfold at2. rewrite nth_error_map_seq by (apply nth_error_Some; congruence). cbn [Nat.add]. rewrite nth_error_mapi, Hi. reflexivity.
Qed.
Lemma surprisal_ext lv nb M K rel B B' coef : (forall d b, (d < lv)%nat -> (b < nb)%nat -> B d b = B' d b) ->
  surprisal lv nb M K rel B coef = surprisal lv nb M K rel B' coef.
Proof.
  intro H. unfold surprisal. apply map_ext. intro c. apply sumn_ext. intros d Hd. apply sumn_ext. intros b Hb. now rewrite H.
Qed.
Lemma positive_term n f : 0 < sumn n f -> exists j, (j < n)%nat /\ 0 < f j.
Proof.
  induction n as [|n IH]; cbn [sumn]; intro H; [lra|]. destruct (Rlt_dec 0 (f n)) as [Hn|Hn]; [exists n; split; [lia|exact Hn]|].
  destruct IH as (j & Hj & Hf); [lra|]. exists j. split; [lia|exact Hf].
Qed.

(** ** Nested model with spline distractors *)
Lemma ns_conditional_at m B i K k : (2 <= K <= list_max (ns_cats m))%nat -> (k < list_max (ns_cats m) - 1)%nat ->
  exists z, nth_error (ns_conditional m B i K) k = Some (Some (if (k <? K - 1)%nat then category_probability (K - 1) z k else 0)) /\
    forall j, z j = sumn (ns_lv m) (fun d => sumn (n_bases (ns_degree m) (ns_knots m)) (fun b => B d b * (if ns_rel m i d && (j <? K - 1)%nat then ns_coef m i d b j else 0))).
Proof.
  intros HK Hk. eexists. split; [|intro j; reflexivity]. unfold ns_conditional.
  apply (softmax_pattern _ (K - 1) (list_max (ns_cats m) - 1)); auto.
  - lia.
  - now rewrite map_length, seq_length.
  - intros q Hq. now rewrite nth_error_map_seq.
Qed.
