(** Integration weights over any history of calls. *)
From Verif Require Import Base BaseFacts RBase RFacts M_Data M_CV M_Logit M_Lik M_Est M_Stat M_Grid M_Eval M_Mix S_Eval S_Mix P_Lik3 P_Stat1 P_Stat3 P_Mix1 P_Mix2 P_Mix3 P_Mix4.
Local Open Scope R_scope.

(** The density the evaluator holds after any sequence of calls. *)
Inductive reached (lv : nat) : option density -> Prop :=
| reached_none : reached lv None
| reached_call held icdf draw last segments m f pop : reached lv held -> starts_ok draw last ->
    reached lv (fst (scores_and_weights (qmvn_fit icdf lv) (gmm_fit_density draw last lv) segments lv m held f pop)).

Definition good (dn : density) : Prop := forall pts r, dn_pdf dn pts = Ok r -> exists ps, r = map fin_r ps /\ length ps = length pts /\ Forall (fun p => 0 <= p) ps /\ (dn_kind dn = KGmm -> Forall (fun p => 0 < p) ps).

Lemma good_gmm draw last lv data dn : starts_ok draw last -> gmm_fit_density draw last lv data = Ok dn -> good dn /\ dn_kind dn = KGmm.
Proof.
  intros [HD HL] H. split.
  - intros pts r Hr. destruct (gmm_density_pdf _ _ _ _ _ pts HD HL H r Hr) as (ps & E & L & P). exists ps. split; [exact E|]. split; [exact L|]. split; [|auto]. eapply Forall_impl; [|exact P]. intros; lra.
  - unfold gmm_fit_density in H. destruct (cv_gmm _ _ _ _ _); [|discriminate]. apply ok_inj in H. now subst.
Qed.
Lemma mapM_pdf (f : list R -> result fl) pts r : (forall x y, f x = Ok y -> exists p, y = fin_r p /\ 0 <= p) -> mapM f pts = Ok r ->
  exists ps, r = map fin_r ps /\ length ps = length pts /\ Forall (fun p => 0 <= p) ps.
Proof.
  intros Hf. revert r; induction pts as [|x pts IH]; intros r H; cbn [mapM] in H.
  - apply ok_inj in H. subst. now exists [].
  - destruct (f x) as [y|] eqn:Ey; [|discriminate]. cbn [bind] in H. destruct (mapM f pts) as [r'|] eqn:Er; [|discriminate]. cbn [bind] in H. apply ok_inj in H. subst r.
    destruct (Hf _ _ Ey) as (p & -> & Hp). destruct (IH r' eq_refl) as (ps & -> & L & P). exists (p :: ps). cbn [length map]. split; [reflexivity|]. split; [lia|]. now constructor.
Qed.
Lemma good_qmvn icdf lv data dn : qmvn_fit icdf lv data = Ok dn -> good dn /\ dn_kind dn = KQmvn.
Proof.
  intros H. unfold qmvn_fit in H. destruct (mvn _ _ _) as [f|]; [|discriminate]. cbn [rmap] in H. apply ok_inj in H. subst dn. split; [|reflexivity].
  intros pts r Hr. cbn [dn_pdf dn_kind] in *. apply mapM_pdf in Hr.
  - destruct Hr as (ps & A & B & C). exists ps. split; [exact A|]. split; [exact B|]. split; [exact C|discriminate].
  - intros x y Hxy. destruct (qmvn_point icdf lv data x) as [z|]; [|discriminate]. cbn [bind] in Hxy. unfold qmvn_pdf_at in Hxy. destruct (existsb _ z); [discriminate|]. apply ok_inj in Hxy. subst y.
    destruct (forallb is_fin z); eexists; (split; [reflexivity|]); [apply Rlt_le, exp_pos|lra].
Qed.
Lemma good_unfitted : good unfitted.
Proof. intros pts r Hr. discriminate. Qed.

Definition held_good (h : option density) : Prop := match h with Some d => good d | None => True end.
Lemma approximate_good icdf draw last lv m held scores : starts_ok draw last -> held_good held ->
  let r := approximate (qmvn_fit icdf lv) (gmm_fit_density draw last lv) m held scores in
  held_good (fst r) /\ (forall d, snd r = Ok d -> good d /\ ((m = MQmvn /\ dn_kind d = KQmvn) \/ (m = MGmm /\ dn_kind d = KGmm))).
Proof.
  intros HS HH. unfold approximate. destruct m; cbn [fst snd]; try (split; [exact HH|discriminate]).
  - destruct (qmvn_fit icdf lv scores) as [d|] eqn:E; cbn [fst snd held_good]; [|split; [apply good_unfitted|discriminate]]. destruct (good_qmvn _ _ _ _ E) as [G K]. split; [exact G|]. intros d' H. apply ok_inj in H. subst. auto.
  - destruct (gmm_fit_density draw last lv scores) as [d|] eqn:E; cbn [fst snd held_good]; [|split; [exact HH|discriminate]]. destruct (good_gmm _ _ _ _ _ HS E) as [G K]. split; [exact G|]. intros d' H. apply ok_inj in H. subst. auto.
Qed.
Lemma kind_eqb_eq a b : kind_eqb a b = true -> a = b.
Proof. destruct a, b; cbn; congruence. Qed.
Lemma density_weights_good icdf draw last segments lv m held pop scores : starts_ok draw last -> held_good held ->
  let r := density_weights (qmvn_fit icdf lv) (gmm_fit_density draw last lv) segments lv m held pop scores in
  held_good (fst r) /\ (forall grid ws, snd r = Ok (grid, ws) -> integration_grid segments lv scores = Ok grid /\
    exists ps, ws = normalised (map fin_r ps) /\ length ps = length grid /\ Forall (fun p => 0 <= p) ps /\ (m = MGmm -> Forall (fun p => 0 < p) ps) /\ (m = MGmm \/ m = MQmvn)).
Proof.
  intros HS HH. unfold density_weights.
  set (found := if pop then None else _).
  assert (HF : forall d, found = Some d -> good d /\ held = Some d /\ ((m = MQmvn /\ dn_kind d = KQmvn) \/ (m = MGmm /\ dn_kind d = KGmm))).
  { unfold found. intros d H. destruct pop; [discriminate|]. destruct held as [h|]; [|now destruct m]. cbn [held_good] in HH.
    destruct m; try discriminate; (destruct (kind_eqb (dn_kind h) _) eqn:K; [|discriminate]; apply kind_eqb_eq in K; assert (h = d) by congruence; subst; auto). }
  assert (HA : let '(h', fd) := match found with Some d => (held, Ok d) | None => approximate (qmvn_fit icdf lv) (gmm_fit_density draw last lv) m held scores end in
    held_good h' /\ (forall d, fd = Ok d -> good d /\ ((m = MQmvn /\ dn_kind d = KQmvn) \/ (m = MGmm /\ dn_kind d = KGmm)))).
  { destruct found as [d|].
    - destruct (HF d eq_refl) as (G & E & K). split; [exact HH|]. intros d' H. apply ok_inj in H. now subst.
    - pose proof (approximate_good icdf draw last lv m held scores HS HH) as A. cbv zeta in A. now destruct (approximate _ _ m held scores). }
  destruct (match found with Some d => (held, Ok d) | None => _ end) as [h' fd]. destruct HA as [A1 A2]. cbv zeta. cbn [fst snd]. split; [exact A1|].
  intros grid ws H. destruct fd as [d|]; [|discriminate]. cbn [bind] in H. destruct (integration_grid segments lv scores) as [g|]; [|discriminate]. cbn [bind] in H.
  destruct (dn_pdf d g) as [p|] eqn:Ep; [|discriminate]. cbn [bind] in H. apply ok_inj in H. assert (g = grid) by congruence. assert (ws = normalised p) by congruence. subst. split; [reflexivity|].
  destruct (A2 d eq_refl) as [G K]. destruct (G grid p Ep) as (ps & -> & L & P0 & P1). exists ps. split; [reflexivity|]. split; [exact L|]. split; [exact P0|]. split; [|intuition].
  intros ->. apply P1. intuition discriminate.
Qed.
Lemma reached_good lv held : reached lv held -> held_good held.
Proof.
  induction 1 as [|held icdf draw last segments m f pop _ IH HS]; [exact I|]. unfold scores_and_weights.
  destruct (validate_method m (ft_vae f)); [|exact IH]. destruct (match pop with Some r => r | None => _ end) as [scores|]; [|exact IH].
  destruct m; try exact IH; apply density_weights_good; assumption.
Qed.
Lemma rsum_zero_all ps : Forall (fun p => 0 <= p) ps -> rsum ps = 0 -> Forall (fun p => p = 0) ps.
Proof.
  induction 1 as [|p ps Hp HF IH]; intros H; [constructor|]. cbn [rsum fold_right] in H. change (p + rsum ps = 0) in H.
  assert (0 <= rsum ps). { clear - HF. induction HF as [|x l Hx _ IH]; [cbn; lra|]. change (0 <= x + rsum l). lra. } constructor; [lra|]. apply IH. lra.
Qed.
Lemma rsum_all_nonneg ps : Forall (fun p => 0 <= p) ps -> 0 <= rsum ps.
Proof. induction 1 as [|x l Hx _ IH]; [cbn; lra|]. change (0 <= x + rsum l). lra. Qed.
Lemma normalised_cases ps : Forall (fun p => 0 <= p) ps ->
  (exists qs, normalised (map fin_r ps) = map fin_r qs /\ length qs = length ps /\ weights_ok qs /\ forall i, nth i qs 0 = nth i ps 0 / rsum ps) \/
  (Forall (fun p => p = 0) ps /\ normalised (map fin_r ps) = map (fun _ => None) ps).
Proof.
  intros H. destruct (Rle_lt_or_eq_dec 0 (rsum ps) (rsum_all_nonneg ps H)) as [G|E].
  - left. exists (map (fun p => p / rsum ps) ps). split; [now apply normalised_fin|]. split; [apply map_length|]. split; [now apply normalised_ok|].
    intros i. replace 0 with (0 / rsum ps) at 1 by (unfold Rdiv; ring). apply (map_nth (fun p => p / rsum ps)).
  - right. symmetry in E. pose proof (rsum_zero_all ps H E) as Z. split; [exact Z|]. unfold normalised. rewrite map_map. apply map_ext_in. intros p Hp. unfold fin_r at 2. rewrite fsum_fin, E.
    rewrite Forall_forall in Z. rewrite (Z p Hp). unfold fdiv, fin_r. cbn. destruct (Req_EM_T 0 0); [|congruence]. destruct (Rlt_dec 0 0); [lra|]. reflexivity.
Qed.
Lemma weights_spec icdf draw last segments lv m held f pop grid ws : starts_ok draw last -> reached lv held ->
  snd (scores_and_weights (qmvn_fit icdf lv) (gmm_fit_density draw last lv) segments lv m held f pop) = Ok (grid, ws) -> grid <> [] ->
  length ws = length grid /\
  ((exists qs, ws = map fin_r qs /\ weights_ok qs /\ (m = MGmm -> Forall (fun q => 0 < q) qs)) \/
   (m = MQmvn /\ Forall (fun w => w = None) ws)).
Proof.
  intros HS HR H HG. pose proof (reached_good lv held HR) as HH. unfold scores_and_weights in H.
  destruct (validate_method m (ft_vae f)); [|discriminate]. destruct (match pop with Some r => r | None => _ end) as [scores|]; [|discriminate].
  assert (DW : snd (density_weights (qmvn_fit icdf lv) (gmm_fit_density draw last lv) segments lv m held (match pop with Some _ => true | None => false end) scores) = Ok (grid, ws) ->
    length ws = length grid /\ ((exists qs, ws = map fin_r qs /\ weights_ok qs /\ (m = MGmm -> Forall (fun q => 0 < q) qs)) \/ (m = MQmvn /\ Forall (fun w => w = None) ws))).
  { intros D. destruct (density_weights_good icdf draw last segments lv m held (match pop with Some _ => true | None => false end) scores HS HH) as [_ X]. destruct (X grid ws D) as (_ & ps & -> & L & P0 & P1 & M).
    split; [unfold normalised; now rewrite !map_length|]. destruct (normalised_cases ps P0) as [(qs & E & Lq & W & N)|(Z & E)].
    - left. exists qs. split; [exact E|]. split; [exact W|]. intros Hm. specialize (P1 Hm). apply Forall_forall. intros q Hq. apply (In_nth _ _ 0) in Hq. destruct Hq as (i & Hi & <-). rewrite N.
      rewrite Forall_forall in P1. apply Rdiv_lt_0_compat; [apply P1, nth_In; lia|]. 
      assert (ne : ps <> []) by (intros ->; cbn in *; lia). clear - P1 ne. destruct ps as [|p ps]; [congruence|]. change (0 < p + rsum ps). pose proof (P1 p (or_introl eq_refl)).
      assert (0 <= rsum ps) by (apply rsum_all_nonneg, Forall_forall; intros x Hx; apply Rlt_le, P1; now right). lra.
    - destruct M as [->| ->].
      + exfalso. specialize (P1 eq_refl). destruct ps as [|p ps]; [destruct grid; [congruence|discriminate]|]. inversion P1; subst. inversion Z; subst. lra.
      + right. split; [reflexivity|]. rewrite E. apply Forall_map, Forall_forall. reflexivity. }
  destruct m; try (apply DW; exact H); try discriminate H.
  apply ok_inj in H. assert (scores = grid) by congruence. subst scores. assert (EW : ws = map (fun _ => fdiv (fin_r 1) (fin_r (INR (length grid)))) grid) by congruence. subst ws. clear H. split; [apply map_length|]. left.
  assert (HN : 0 < INR (length grid)) by (apply lt_0_INR; destruct grid; [congruence|cbn [length]; lia]).
  exists (map (fun _ => 1 / INR (length grid)) grid). split; [rewrite map_map; apply map_ext; intros; now apply fdiv_pos|]. split; [|discriminate].
  split.
  - apply Forall_map, Forall_forall. intros _ _. apply Rlt_le, Rdiv_lt_0_compat; lra.
  - rewrite rsum_map_const. field. lra.
Qed.
