(** Property C153: abler respondents do no worse on any score of a monotone test. *)
From Coq Require Import Lra String.
From Verif Require T_Flex T_Tab T_BSpl T_Abler.
From Verif Require Import Base BaseFacts RBase RFacts M_Data M_Logit M_Lik M_Est M_Mono M_BSpl M_Flex M_Tab P_Logit P_Logit2 P_Logit3 P_Lik1 P_Mono4 P_Mono5 P_Mono6 P_Mono7 P_BSpl3 P_True1 P_Abler P_Cmp S_Logit S_Lik S_Est S_Mono S_BSpl S_True S_Suff S_Rao S_Abler S_Flex S_Betw.
Import List.
Local Open Scope R_scope.
Notation length := List.length.

(** Summation by parts. *)
Lemma steps_to (e : nat -> R) : forall k n, (k <= n)%nat -> e k = e O + sumn n (fun c => if (c <? k)%nat then e (S c) - e c else 0).
Proof.
  intros k n H. rewrite (sumn_truncate k n _ H) by (intros j Hj; destruct (Nat.ltb_spec j k); [lia|reflexivity]).
  rewrite (sumn_ext _ _ (fun c => e (S c) - e c)) by (intros j Hj; destruct (Nat.ltb_spec j k); [reflexivity|lia]).
  clear H. induction k as [|k IH]; [cbn; ring|]. cbn [sumn]. rewrite <- Rplus_assoc, <- IH. ring.
Qed.
Lemma by_parts K (u e : nat -> R) : sumn K (fun k => u k * e k) = e O * sumn K u + sumn (K - 1) (fun c => (e (S c) - e c) * above K c u).
Proof.
  rewrite (sumn_ext K _ (fun k => e O * u k + sumn (K - 1) (fun c => (e (S c) - e c) * (if (c <? k)%nat then u k else 0)))).
  - rewrite sumn_plus, sumn_scal. f_equal. rewrite sumn_swap. apply sumn_ext. intros c _. unfold above. now rewrite sumn_scal.
  - intros k Hk. rewrite (steps_to e k (K - 1)) at 1 by lia. rewrite Rmult_plus_distr_l. f_equal; [ring|]. rewrite <- sumn_scal. apply sumn_ext. intros c _. destruct (c <? k)%nat; ring.
Qed.
Lemma tails_average K u v e : sumn K u = sumn K v -> (forall c, above K c u <= above K c v) -> (forall k, (S k < K)%nat -> e k <= e (S k)) -> sumn K (fun k => u k * e k) <= sumn K (fun k => v k * e k).
Proof.
  intros HS HA HE. rewrite (by_parts K u e), (by_parts K v e), HS. apply Rplus_le_compat_l. apply sumn_le. intros c Hc. apply Rmult_le_compat_l; [|apply HA]. specialize (HE c ltac:(lia)). lra.
Qed.
(** Every item is answered no worse with [t'] than with [t]. *)
Definition tails (cats : list nat) (p : list R -> nat -> nat -> R) (t t' : list R) : Prop :=
  forall i, (i < length cats)%nat -> (forall k, (k < nth i cats O)%nat -> 0 <= p t i k /\ 0 <= p t' i k) /\ sumn (nth i cats O) (p t i) = 1 /\ sumn (nth i cats O) (p t' i) = 1 /\
    forall c, above (nth i cats O) c (p t i) <= above (nth i cats O) c (p t' i).
Lemma answers_le_at cats : forall seen p t f g, length seen = length cats -> (forall i k, (i < length cats)%nat -> (k < nth i cats O)%nat -> 0 <= p t i k) ->
  (forall row, In row (possible_rows cats seen) -> f row <= g row) -> on_answers cats seen p t f <= on_answers cats seen p t g.
Proof.
  induction cats as [|K cats IH]; intros [|b seen] p t f g HL HP H; try discriminate; [rewrite !answers_empty; apply H; now left|]. cbn [List.length] in HL, HP.
  assert (HT : forall i k, (i < length cats)%nat -> (k < nth i cats O)%nat -> 0 <= shift p t i k) by (intros i k Hi Hk; exact (HP (S i) k ltac:(lia) Hk)). destruct b.
  - rewrite !answers_seen. apply sumn_le. intros k Hk. apply Rmult_le_compat_l; [exact (HP O k ltac:(lia) Hk)|]. apply IH; [lia|exact HT|]. intros row Hr. apply H. now apply row_seen.
  - rewrite !answers_unseen. apply IH; [lia|exact HT|]. intros row Hr. apply H. now apply row_unseen.
Qed.
Lemma tails_dominate cats : forall seen p f t t', length seen = length cats -> tails cats p t t' -> rises cats seen f -> on_answers cats seen p t f <= on_answers cats seen p t' f.
Proof.
  induction cats as [|K cats IH]; intros [|b seen] p f t t' HL HT HR; try discriminate; [rewrite !answers_empty; lra|]. cbn [List.length] in HL.
  assert (HT' : tails cats (shift p) t t') by (intros i Hi; exact (HT (S i) ltac:(cbn; lia))). destruct b.
  - rewrite !answers_seen. destruct (HT O ltac:(cbn; lia)) as (P & E1 & E2 & A). cbn [nth] in P, E1, E2, A. set (e := fun t k => on_answers cats seen (shift p) t (fun row => f (Some (Z.of_nat k) :: row))).
    apply Rle_trans with (sumn K (fun k => p t O k * e t' k)).
    + apply sumn_le. intros k Hk. apply Rmult_le_compat_l; [now apply P|]. apply IH; [lia|exact HT'|]. now apply rises_tail with K.
    + apply (tails_average K (p t O) (p t' O) (e t')); [congruence|exact A|]. intros k Hk. apply answers_le_at; [lia|intros i j Hi Hj; exact (proj2 (proj1 (HT' i Hi) j Hj))|]. intros row Hr. apply (rises_head K cats seen f k (S k) row); auto; lia.
  - rewrite !answers_unseen. apply IH; [lia|exact HT'|]. now apply rises_unseen with K.
Qed.
(** The mean of every rising score is no lower with [t'], and neither is the probability to reach any level of it. *)
Definition does_no_worse (cats : list nat) (p : list R -> nat -> nat -> R) (t t' : list R) : Prop :=
  forall seen f, length seen = length cats -> rises cats seen f ->
    on_answers cats seen p t f <= on_answers cats seen p t' f /\
    forall c, on_answers cats seen p t (fun row => if Rle_dec c (f row) then 1 else 0) <= on_answers cats seen p t' (fun row => if Rle_dec c (f row) then 1 else 0).
Lemma tails_no_worse cats p t t' : tails cats p t t' -> does_no_worse cats p t t'.
Proof.
  intros HT seen f HL HR. split; [now apply tails_dominate|]. intro c. apply tails_dominate; auto. intros row row' Hr Hr' HN. pose proof (HR row row' Hr Hr' HN). destruct (Rle_dec c (f row)), (Rle_dec c (f row')); lra.
Qed.
(** ** C153 *)
(** MonotoneBSpline models: raising one latent variable never lowers a score that better answers never lower, on average or in the probability to reach a level. *)
Theorem C153_splines : forall cats lv knots degree separate m, (0 < lv)%nat -> cats <> [] -> Forall (fun K => (1 <= K)%nat) cats ->
  separate = "items"%string \/ lv = 1%nat -> same_bspl (bs_init cats lv knots degree separate) m -> in_order (match knots with Some l => l | None => default_knots end) ->
  exists p, reports (bs_probabilities m) lv cats p /\ distributions lv cats p /\
    forall t t' d, length t = lv -> (d < lv)%nat -> increases_in d t t' -> does_no_worse cats p t t'.
Proof.
  intros cats lv knots degree separate m Hlv HC HK Hs Hsame Ho. destruct (T_Tab.C145_monotone (-1) cats lv knots degree separate m Hlv HC HK Hs Hsame) as (p & H1 & H2 & _). exists p. split; [exact H1|]. split; [exact H2|].
  intros t t' d Ht Hd Hinc. assert (Ht' : length t' = lv) by (destruct Hinc as [E _]; congruence). apply tails_no_worse. intros i Hi.
  assert (EK : nth_error cats i = Some (nth i cats O)) by (now apply nth_error_nth_lt). destruct (H2 t i _ Ht EK) as [P1 P2]. destruct (H2 t' i _ Ht' EK) as [P1' P2'].
  split; [intros k Hk; split; apply Rlt_le; auto|]. split; [exact P2|]. split; [exact P2'|]. intro c.
  assert (HF : Forall (fun t => length t = lv) [t; t']) by (constructor; [exact Ht|constructor; [exact Ht'|constructor]]).
  destruct (T_BSpl.C86_monotone cats lv knots degree separate m [t; t'] 0 1 t t' d i (nth i cats O) Hlv HK Hs Hsame Ho HF eq_refl eq_refl Hd Hinc EK) as (probs & q & q' & _ & _ & _ & E & Hq & _ & _ & _ & A & _).
  destruct (H1 [t; t'] ltac:(discriminate) HF) as (probs' & E' & Hp). rewrite E in E'. injection E' as <-.
  assert (HM : (nth i cats O <= list_max cats)%nat) by (apply list_max_bound; now apply nth_In).
  assert (Q : forall k, (k < nth i cats O)%nat -> q k = p t i k /\ q' k = p t' i k).
  { intros k Hk. destruct (Hq k ltac:(lia)) as [Q1 Q2]. pose proof (Hp 0%nat t i _ k eq_refl EK Hk) as R1. pose proof (Hp 1%nat t' i _ k eq_refl EK Hk) as R2. split; congruence. }
  destruct (T_BSpl.C86_distribution cats lv knots degree separate m [t; t'] Hlv HK Hs Hsame ltac:(discriminate) HF) as (probs'' & E'' & _ & HD). rewrite E in E''. injection E'' as <-.
  assert (Z : forall r (u : nat -> R), (r < 2)%nat -> (forall k, (k < list_max cats)%nat -> at3 probs r i k = Some (Some (u k))) -> above (list_max cats) c u = above (nth i cats O) c u).
  { intros r u Hr Hu. destruct (HD r i _ Hr EK) as (w & Hw & (_ & _ & W0)). unfold above. apply sumn_truncate; [exact HM|]. intros k Hk. destruct (c <? k)%nat; [|reflexivity]. assert (u k = w k) by (pose proof (Hu k ltac:(lia)); pose proof (Hw k ltac:(lia)); congruence). rewrite H. apply W0. lia. }
  specialize (A c). rewrite (Z 0%nat q), (Z 1%nat q') in A by (try lia; intros k Hk; apply (Hq k Hk)).
  unfold above in *. rewrite (sumn_ext _ _ (fun j => if (c <? j)%nat then p t i j else 0)) in A by (intros k Hk; destruct (c <? k)%nat; [now apply Q|reflexivity]). eapply Rle_trans; [exact A|]. right. apply sumn_ext. intros k Hk. destruct (c <? k)%nat; [now apply Q|reflexivity].
Qed.
Print Assumptions C153_splines.
(** Two items answered, two latent variables: the score on the first item is no lower, on average and in its distribution, if the second latent variable is raised. *)
Example C153_nonvacuous : exists p, reports (bs_probabilities T_Tab.spline_test) 2 [3;2]%nat p /\
  on_answers [3;2]%nat [true;true] p [0;0] (score_on 0) <= on_answers [3;2]%nat [true;true] p [0;1] (score_on 0) /\
  on_answers [3;2]%nat [true;true] p [0;0] (fun row => if Rle_dec 2 (score_on 0 row) then 1 else 0) <= on_answers [3;2]%nat [true;true] p [0;1] (fun row => if Rle_dec 2 (score_on 0 row) then 1 else 0).
Proof.
  assert (HK : Forall (fun K => (1 <= K)%nat) [3;2]%nat) by (repeat constructor; lia).
  destruct (C153_splines [3;2]%nat 2 None 3 "items" T_Tab.spline_test ltac:(lia) ltac:(discriminate) HK ltac:(now left)) as (p & HP & _ & HA).
  { unfold same_bspl. repeat split; auto. }
  { intros i j [Hij Hj]. cbn in Hj. destruct i as [|[|[|[|[|i]]]]], j as [|[|[|[|[|j]]]]]; cbn; lra || lia. }
  exists p. split; [exact HP|]. destruct (HA [0;0] [0;1] 1%nat eq_refl ltac:(lia)) with (seen := [true;true]) (f := score_on 0%nat) as [H1 H2].
  - unfold increases_in. split; [reflexivity|]. split; [cbn; lra|]. intros [|[|e]] He; cbn; lia || (try destruct e; reflexivity).
  - reflexivity.
  - now apply T_Abler.item_rises.
  - split; [exact H1|apply H2].
Qed.
(** Networks without a key: the probabilities are softmaxes of cumulated outputs of the units. *)
Lemma mnn_at m t i K : mnn_ok m -> n_key m = None -> length t = n_lv m -> nth_error (n_cats m) i = Some K ->
  exists probs, mnn_probabilities m [t] = Ok probs /\ forall k, (k < K)%nat ->
    at3 probs 0 i k = Some (Some (category_probability K (fun k => sumn (S k) (mnn_unit m t i) + bias_at (n_cats m) (n_bias m) i k) k)).
Proof.
  intros Hm Hkey Ht EK. pose proof Hm as (H1 & H2 & _). pose proof (list_max_pos _ H1 H2) as HM. fold (n_max m) in HM.
  set (row := fun t => cumulative_logits (n_cats m) (n_bias m) (mnn_table m t)).
  assert (Hf : mnn_forward m [t] = Ok (map row [t])).
  { unfold mnn_forward. apply mapM_total. intros a [<-|[]]. rewrite mnn_forward1_table by auto. now rewrite Hkey. }
  assert (HFl : Forall (fun o : list ext => length o = (n_items m * n_max m)%nat) (map row [t])).
  { apply Forall_forall. intros o Ho. apply in_map_iff in Ho as (a & <- & _). unfold row, mnn_table. apply cumulative_length. exact HM. }
  assert (HK : (1 <= K <= n_max m)%nat).
  { rewrite Forall_forall in H2. split; [apply H2; eapply nth_error_In; eauto|]. apply list_max_bound. eapply nth_error_In; eauto. }
  assert (Hi : (i < n_items m)%nat) by (unfold n_items; apply nth_error_Some; congruence).
  exists (probabilities_from_output (n_items m) (n_max m) (map row [t])). split; [unfold mnn_probabilities; now rewrite Hf|]. intros k Hk.
  rewrite (probabilities_pattern (n_items m) (n_max m) (map row [t]) 0 (row t) i K (fun k => sumn (S k) (mnn_unit m t i) + bias_at (n_cats m) (n_bias m) i k)); [|lia|exact HFl|reflexivity|exact Hi|exact HK| |lia].
  - destruct (Nat.ltb_spec k K); [reflexivity|lia].
  - intros j Hj. unfold row, mnn_table. now apply cumulative_nth.
Qed.
(** MonotoneNN models without a key of correct answers: the same, if no item has a negative relationship to the latent variable. *)
Theorem C153_network : forall cats lv rel hidden sep neg bounded m0 m,
  mnn_init cats lv rel hidden None sep neg bounded = Ok m0 -> cats <> [] -> Forall (fun K => (1 <= K)%nat) cats -> (0 < lv)%nat ->
  (forall h, hidden = Some h -> Forall (fun x => (0 < x)%nat) h) -> same_mnn m0 m ->
  exists p, reports (mnn_probabilities m) lv cats p /\ distributions lv cats p /\
    forall t t' d, length t = lv -> (d < lv)%nat -> increases_in d t t' -> (forall i, (i < length cats)%nat -> 0 <= mnn_direction m i d) -> does_no_worse cats p t t'.
Proof.
  intros cats lv rel hidden sep neg bounded m0 m E0 HC HK Hlv Hh Hs.
  destruct (T_Flex.C144_network (-1) cats lv rel hidden None sep neg bounded m0 m E0 HC HK Hlv Hh ltac:(discriminate) Hs) as (p & H1 & H2 & _). exists p. split; [exact H1|]. split; [exact H2|].
  destruct (mnn_init_ok _ _ _ _ _ _ _ _ _ E0 HC HK Hlv Hh) as (Hok0 & Ec & El & Ek & _). pose proof (same_mnn_ok _ _ Hs Hok0) as Hok.
  assert (Ec' : n_cats m = cats) by (unfold same_mnn in Hs; decompose [and] Hs; congruence). assert (El' : n_lv m = lv) by (unfold same_mnn in Hs; decompose [and] Hs; congruence). assert (Ek' : n_key m = None) by (unfold same_mnn in Hs; decompose [and] Hs; congruence).
  clear Ec El Hs E0. subst cats lv. intros t t' d Ht Hd Hinc Hdir. assert (Ht' : length t' = n_lv m) by (destruct Hinc as [E _]; congruence). apply tails_no_worse. intros i Hi.
  assert (EK : nth_error (n_cats m) i = Some (nth i (n_cats m) O)) by (now apply nth_error_nth_lt). destruct (H2 t i _ Ht EK) as [P1 P2]. destruct (H2 t' i _ Ht' EK) as [P1' P2'].
  split; [intros k Hk; split; apply Rlt_le; auto|]. split; [exact P2|]. split; [exact P2'|]. intro c. set (K := nth i (n_cats m) O) in *.
  set (z := fun a k => sumn (S k) (mnn_unit m a i) + bias_at (n_cats m) (n_bias m) i k).
  assert (HM : (1 <= K <= n_max m)%nat) by (split; [rewrite Forall_forall in HK; apply HK|apply list_max_bound]; eapply nth_error_In; eauto).
  assert (Q : forall a k, length a = n_lv m -> (k < K)%nat -> p a i k = category_probability K (z a) k).
  { intros a k Ha Hk. destruct (mnn_at m a i K Hok Ek' Ha EK) as (probs & E & Hp). destruct (H1 [a] ltac:(discriminate) ltac:(constructor; [exact Ha|constructor])) as (probs' & E' & Hp'). rewrite E in E'. injection E' as <-. pose proof (Hp k Hk) as R1. pose proof (Hp' 0%nat a i K k eq_refl EK Hk) as R2. unfold z. congruence. }
  assert (A : above K c (category_probability K (z t)) <= above K c (category_probability K (z t'))).
  { apply above_le; [lia|]. intros k Hk. unfold z. cbn [sumn]. destruct (mnn_unit_monotone m t t' d i (S k) Hok Hd Hi ltac:(lia) Hinc) as [U _]. specialize (U (Hdir i Hi)). lra. }
  unfold above in *. rewrite (sumn_ext _ (fun j => if (c <? j)%nat then p t i j else 0) (fun j => if (c <? j)%nat then category_probability K (z t) j else 0)) by (intros k Hk; destruct (c <? k)%nat; [now apply Q|reflexivity]). eapply Rle_trans; [exact A|]. right. apply sumn_ext. intros k Hk. destruct (c <? k)%nat; [symmetry; now apply Q|reflexivity].
Qed.
Print Assumptions C153_network.
Example C153_network_nonvacuous : exists m p, mnn_init [3;2]%nat 2 None (Some [3;6]%nat) None true true true = Ok m /\ reports (mnn_probabilities m) 2 [3;2]%nat p /\
  on_answers [3;2]%nat [true;true] p [0;0] (score_on 0) <= on_answers [3;2]%nat [true;true] p [0;1] (score_on 0).
Proof.
  destruct (mnn_init [3;2]%nat 2 None (Some [3;6]%nat) None true true true) as [m|e] eqn:E.
  2:{ vm_compute in E. discriminate. }
  destruct (C153_network [3;2]%nat 2 None (Some [3;6]%nat) true true true m m E ltac:(discriminate)) as (p & HP & _ & HA).
  - repeat constructor.
  - lia.
  - intros h Hh. injection Hh as <-. repeat constructor.
  - apply same_mnn_refl.
  - exists m, p. split; [reflexivity|]. split; [exact HP|]. apply (HA [0;0] [0;1] 1%nat eq_refl ltac:(lia)); [| |reflexivity|now apply T_Abler.item_rises].
    + unfold increases_in. split; [reflexivity|]. split; [cbn; lra|]. intros [|[|e]] He; cbn; lia || (try destruct e; reflexivity).
    + intros i Hi. unfold mnn_init in E. cbn in E. injection E as <-. unfold mnn_direction. destruct i as [|[|i]]; cbn in *; lra || lia.
Qed.
(** MonotonePolynomial models: the same, if no item's direction for the latent variable is negative. *)
Theorem C153_polynomial : forall cats lv rel degree sep neg dir0 m0 m,
  mpm_init cats lv rel degree sep neg dir0 = Ok m0 -> cats <> [] -> Forall (fun K => (1 <= K)%nat) cats -> same_mpm m0 m ->
  exists p, reports (fun thetas => Ok (mpm_probabilities m thetas)) lv cats p /\ distributions lv cats p /\
    forall t t' d, length t = lv -> (d < lv)%nat -> increases_in d t t' -> (forall i, (i < length cats)%nat -> mpm_directions m i d <> (-1)%Z) -> does_no_worse cats p t t'.
Proof.
  intros cats lv rel degree sep neg dir0 m0 m E0 HC HK Hs.
  destruct (T_Flex.C144_polynomial (-1) cats lv rel degree sep neg dir0 m0 m E0 HC HK Hs) as (p & H1 & H2 & _). exists p. split; [exact H1|]. split; [exact H2|].
  destruct (mpm_init_ok _ _ _ _ _ _ _ _ E0 HC HK) as (Hok0 & Ec & El & _). pose proof (same_mpm_ok _ _ Hs Hok0) as Hok.
  assert (Ec' : q_cats m = cats) by (unfold same_mpm in Hs; decompose [and] Hs; congruence). assert (El' : mp_in (q_poly m) = lv) by (unfold same_mpm in Hs; decompose [and] Hs; congruence).
  clear Ec El Hs E0. subst cats lv. intros t t' d Ht Hd Hinc Hdir. assert (Ht' : length t' = mp_in (q_poly m)) by (destruct Hinc as [E _]; congruence). apply tails_no_worse. intros i Hi.
  assert (EK : nth_error (q_cats m) i = Some (nth i (q_cats m) O)) by (now apply nth_error_nth_lt). destruct (H2 t i _ Ht EK) as [P1 P2]. destruct (H2 t' i _ Ht' EK) as [P1' P2'].
  split; [intros k Hk; split; apply Rlt_le; auto|]. split; [exact P2|]. split; [exact P2'|]. intro c. set (K := nth i (q_cats m) O) in *.
  pose proof (list_max_pos _ HC HK) as HM0. fold (q_max m) in HM0.
  set (z := fun a k => sumn (S k) (mpm_unit m a i) + bias_at (q_cats m) (q_bias m) i k).
  assert (HM : (1 <= K <= q_max m)%nat) by (split; [rewrite Forall_forall in HK; apply HK|apply list_max_bound]; eapply nth_error_In; eauto).
  assert (Q : forall a k, length a = mp_in (q_poly m) -> (k < K)%nat -> p a i k = category_probability K (z a) k).
  { intros a k Ha Hk. destruct (H1 [a] ltac:(discriminate) ltac:(constructor; [exact Ha|constructor])) as (probs' & E' & Hp'). injection E' as <-. pose proof (Hp' 0%nat a i K k eq_refl EK Hk) as R2.
    unfold mpm_probabilities in R2. rewrite (probabilities_pattern (q_items m) (q_max m) (map (mpm_forward1 m) [a]) 0 (mpm_forward1 m a) i K (z a)) in R2; [| |constructor; [|constructor]|reflexivity|exact Hi|exact HM| |lia].
    - destruct (Nat.ltb_spec k K); [congruence|lia].
    - unfold q_items. lia.
    - rewrite mpm_forward1_table by auto. now apply cumulative_length.
    - intros j Hj. rewrite mpm_forward1_table by auto. now apply cumulative_nth. }
  assert (A : above K c (category_probability K (z t)) <= above K c (category_probability K (z t'))).
  { apply above_le; [lia|]. intros k Hk. unfold z. cbn [sumn].
    assert (U : (0 < mpm_sign m i d -> mpm_unit m t i (S k) < mpm_unit m t' i (S k)) /\ (mpm_sign m i d < 0 -> mpm_unit m t' i (S k) < mpm_unit m t i (S k)) /\ (mpm_sign m i d = 0 -> mpm_unit m t i (S k) = mpm_unit m t' i (S k))) by (apply mpm_unit_monotone; auto; lia).
    destruct U as (U1 & _ & U3). destruct (mpm_directions_sign m i d Hok Hi) as (D1 & D2 & D3).
    assert (SG : 0 <= mpm_sign m i d).
    { specialize (Hdir i Hi). assert (mpm_directions m i d = 1%Z \/ mpm_directions m i d = 0%Z) as [D|D]; [|now apply D1|right; symmetry; now apply D3].
      revert Hdir. unfold mpm_directions. destruct (mp_dir (q_poly m)); [|now left]. unfold rsign. destruct (Rlt_dec 0 _); [now left|]. destruct (Rlt_dec _ 0); [congruence|now right]. }
    destruct SG as [SG|SG]; [specialize (U1 SG); lra|specialize (U3 (eq_sym SG)); lra]. }
  unfold above in *. rewrite (sumn_ext _ (fun j => if (c <? j)%nat then p t i j else 0) (fun j => if (c <? j)%nat then category_probability K (z t) j else 0)) by (intros k Hk; destruct (c <? k)%nat; [now apply Q|reflexivity]). eapply Rle_trans; [exact A|]. right. apply sumn_ext. intros k Hk. destruct (c <? k)%nat; [symmetry; now apply Q|reflexivity].
Qed.
Print Assumptions C153_polynomial.
Example C153_polynomial_nonvacuous : exists m p, mpm_init [3;2]%nat 2 None 5 false true (fun d _ => if (d =? 0)%nat then 1 else -1) = Ok m /\ reports (fun thetas => Ok (mpm_probabilities m thetas)) 2 [3;2]%nat p /\
  on_answers [3;2]%nat [true;true] p [0;0] (score_on 0) <= on_answers [3;2]%nat [true;true] p [1;0] (score_on 0).
Proof.
  destruct (mpm_init [3;2]%nat 2 None 5 false true (fun d _ => if (d =? 0)%nat then 1 else -1)) as [m|err] eqn:E.
  2:{ vm_compute in E. discriminate. }
  destruct (C153_polynomial [3;2]%nat 2 None 5 false true _ m m E ltac:(discriminate)) as (p & HP & _ & HA).
  - repeat constructor.
  - unfold same_mpm. repeat split; auto.
  - exists m, p. split; [reflexivity|]. split; [exact HP|]. apply (HA [0;0] [1;0] 0%nat eq_refl ltac:(lia)); [| |reflexivity|now apply T_Abler.item_rises].
    + unfold increases_in. split; [reflexivity|]. split; [cbn; lra|]. intros [|[|e]] He; cbn; lia || (try destruct e; reflexivity).
    + intros i Hi. unfold mpm_init in E. cbn in E. injection E as <-. unfold mpm_directions. destruct i as [|[|i]]; cbn in Hi; [| |lia]; cbn; unfold rsign; (match goal with |- context [Rlt_dec 0 ?x] => destruct (Rlt_dec 0 x) end; [lia|exfalso; lra]).
Qed.
