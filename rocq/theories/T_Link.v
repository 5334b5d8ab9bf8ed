(** C98: the criterion of linking by common items. *)
From Verif Require Import Base BaseFacts RBase RFacts M_Logit S_Logit P_Logit M_Lik M_Est M_Scale S_Scale S_Pop P_Pop6 M_Info S_Info P_Info2 P_Info3 P_Info4 P_Row M_Link S_Link P_Link.
Import List.
Local Open Scope R_scope.

(** ** The loss *)
(** The loss of a batch is the mean, over respondents and common items, of the divergence of the second model's
    category probabilities at the linked scores, each increased by 1e-10, from the first model's probabilities. *)
Theorem C98_loss : forall cats cats' M probs probs' p q idx idx' thetas linked,
  row_model 1 cats M probs p -> row_model 1 cats' M probs' q -> common_items cats cats' idx idx' ->
  one_column thetas -> one_column linked -> length linked = length thetas ->
  link_loss link_eps (length cats) (length cats') probs probs' idx idx' thetas linked =
  Ok (Some (Fin (mean_divergence M (1 / 10 ^ 10) (length cats) (length cats') p q idx idx' thetas linked))).
Proof.
  intros cats cats' M probs probs' p q idx idx' thetas linked HP HQ (I1 & I2 & I3 & I4) [Tn T1] [_ L1] HL.
  rewrite (loss_value 1 1 cats cats' M probs probs' p q) by (assumption || (unfold link_eps; apply Rinv_0_lt_compat; lra)).
  replace link_eps with (1 / 10 ^ 10) by (unfold link_eps; field). reflexivity.
Qed.
Print Assumptions C98_loss.

(** The models of the library with one latent variable meet the hypotheses. *)
Theorem C98_models :
  (forall m, tpl_wf m -> (0 < tpl_items m)%nat -> row_model (tpl_lv m) (repeat 2%nat (tpl_items m)) 2 (tpl_probabilities m) (tpl_p m)) /\
  (forall m, thpl_wf m -> row_model (thpl_lv m) (repeat 2%nat (thpl_items m)) 2 (fun thetas => some3 (thpl_probabilities m thetas)) (thpl_p m)) /\
  (forall m, poly_wf m -> (0 < p_items m)%nat -> row_model (p_lv m) (p_cats m) (p_max m) (gpc_probabilities m) (soft (p_cats m) (gpc_z m))) /\
  (forall m, poly_wf m -> ordered m -> (0 < p_items m)%nat -> row_model (p_lv m) (p_cats m) (p_max m) (fun thetas => some3 (grm_probabilities m thetas)) (grm_p m)) /\
  (forall m, nrm_wf m -> (0 < length (nrm_cats m))%nat -> row_model (nrm_lv m) (nrm_cats m) (nrm_max m) (nrm_probabilities m) (soft (nrm_cats m) (nrm_z m))).
Proof.
  split; [exact tpl_row_model|]. split; [exact thpl_row_model|]. split; [exact gpc_row_model|]. split; [exact grm_row_model|exact nrm_row_model].
Qed.
Print Assumptions C98_models.

Lemma eps_range : 0 < 1 / 10 ^ 10 <= 1 / 10.
Proof. split; [apply Rdiv_lt_0_compat; lra|]. lra. Qed.
(** A small loss means close curves: on every common item, at every respondent's score, every category's
    probabilities in the two models differ by at most 1e-10 plus the root of five times the number of terms
    times the loss (with M e-10 of slack). *)
Theorem C98_close : forall cats cats' M probs probs' p q idx idx' thetas linked d,
  row_model 1 cats M probs p -> row_model 1 cats' M probs' q -> common_items cats cats' idx idx' ->
  one_column thetas -> one_column linked -> length linked = length thetas ->
  link_loss link_eps (length cats) (length cats') probs probs' idx idx' thetas linked = Ok (Some (Fin d)) ->
  forall r j k, (r < length thetas)%nat -> (j < length idx)%nat -> (k < M)%nat ->
    Rabs (p (nth r thetas []) (named (length cats) idx j) k - q (nth r linked []) (named (length cats') idx' j) k)
    <= 1 / 10 ^ 10 + sqrt (5 * (INR (length thetas * length idx) * (d + INR M * (1 / 10 ^ 10)))).
Proof.
  intros cats cats' M probs probs' p q idx idx' thetas linked d HP HQ HC HT HL HLen E r j k Hr Hj Hk.
  rewrite (C98_loss cats cats' M probs probs' p q) in E by assumption. destruct HC as (I1 & I2 & I3 & I4). destruct HT as [Tn T1]. destruct HL as [_ L1].
  assert (D : d = mean_divergence M (1 / 10 ^ 10) (length cats) (length cats') p q idx idx' thetas linked) by congruence. clear E.
  set (e := 1 / 10 ^ 10) in *. pose proof eps_range as He. fold e in He.
  destruct (p_valid 1 cats M probs p HP idx thetas T1 I1 r j Hr Hj) as (K & _ & VP). destruct (q_valid 1 cats' M probs' q HQ idx idx' thetas linked L1 I2 HLen I3 r j Hr Hj) as (K' & _ & VQ).
  apply (category_close M K K'); try assumption.
  pose (f := fun r j => hellinger2 M (p (nth r thetas []) (named (length cats) idx j)) (fun k => q (nth r linked []) (named (length cats') idx' j) k + e)).
  change (f r j <= INR (length thetas * length idx) * (d + INR M * e)).
  eapply Rle_trans; [apply (mean2_member (length thetas) (length idx) f r j Hr Hj); intros; apply hellinger2_nonneg|].
  apply Rmult_le_compat_l; [apply pos_INR|]. assert (HN : (0 < length thetas * length idx)%nat) by nia.
  assert (B : mean2 (length thetas) (length idx) (fun r j => f r j - INR M * e) <= d).
  { rewrite D. unfold mean_divergence. apply mean2_le; [|exact HN]. intros r' j' Hr' Hj'. destruct (p_valid 1 cats M probs p HP idx thetas T1 I1 r' j' Hr' Hj') as (K1 & _ & V1).
    destruct (q_valid 1 cats' M probs' q HQ idx idx' thetas linked L1 I2 HLen I3 r' j' Hr' Hj') as (K2 & _ & V2). unfold f. apply (smoothed_bound M K1 K2); [exact V1|exact V2|lra]. }
  rewrite mean2_minus in B by exact HN. lra.
Qed.
Print Assumptions C98_close.

(** The loss is never below -M e-10, and linked scores at which the common items' curves agree have a loss of at
    most zero: no other linked scores can do better by more than M e-10. *)
Theorem C98_minimum : forall cats cats' M probs probs' p q idx idx' thetas linked,
  row_model 1 cats M probs p -> row_model 1 cats' M probs' q -> common_items cats cats' idx idx' ->
  one_column thetas -> one_column linked -> length linked = length thetas ->
  exists d, link_loss link_eps (length cats) (length cats') probs probs' idx idx' thetas linked = Ok (Some (Fin d)) /\
    - (INR M * (1 / 10 ^ 10)) <= d /\
    (curves_agree M (length cats) (length cats') p q idx idx' thetas linked -> d <= 0 /\
     forall other d', one_column other -> length other = length thetas ->
       link_loss link_eps (length cats) (length cats') probs probs' idx idx' thetas other = Ok (Some (Fin d')) -> d - INR M * (1 / 10 ^ 10) <= d').
Proof.
  intros cats cats' M probs probs' p q idx idx' thetas linked HP HQ HC HT HL HLen.
  assert (LB : forall other, one_column other -> length other = length thetas -> - (INR M * (1 / 10 ^ 10)) <= mean_divergence M (1 / 10 ^ 10) (length cats) (length cats') p q idx idx' thetas other).
  { intros other HO HOl. destruct HC as (I1 & I2 & I3 & I4). destruct HT as [Tn T1]. destruct HO as [_ O1]. pose proof eps_range as He.
    assert (HN : (0 < length thetas * length idx)%nat) by (destruct thetas; [congruence|]; destruct idx; [congruence|]; cbn [length]; lia).
    rewrite <- (mean2_const (length thetas) (length idx) _ HN). unfold mean_divergence. apply mean2_le; [|exact HN]. intros r j Hr Hj.
    destruct (p_valid 1 cats M probs p HP idx thetas T1 I1 r j Hr Hj) as (K & _ & V1). destruct (q_valid 1 cats' M probs' q HQ idx idx' thetas other O1 I2 HOl I3 r j Hr Hj) as (K' & _ & V2).
    pose proof (smoothed_bound M K K' (1 / 10 ^ 10) _ _ V1 V2 ltac:(lra)) as B. pose proof (hellinger2_nonneg M (p (nth r thetas []) (named (length cats) idx j)) (fun k => q (nth r other []) (named (length cats') idx' j) k + 1 / 10 ^ 10)). lra. }
  eexists. split; [apply (C98_loss cats cats' M probs probs' p q); assumption|]. split; [now apply LB|]. intros HA.
  assert (U : mean_divergence M (1 / 10 ^ 10) (length cats) (length cats') p q idx idx' thetas linked <= 0).
  { destruct HC as (I1 & I2 & I3 & I4). destruct HT as [Tn T1]. pose proof eps_range as He.
    assert (HN : (0 < length thetas * length idx)%nat) by (destruct thetas; [congruence|]; destruct idx; [congruence|]; cbn [length]; lia).
    apply Rle_trans with (mean2 (length thetas) (length idx) (fun _ _ => 0)); [|rewrite mean2_const; [lra|exact HN]]. unfold mean_divergence. apply mean2_le; [|exact HN]. intros r j Hr Hj.
    destruct (p_valid 1 cats M probs p HP idx thetas T1 I1 r j Hr Hj) as (K & _ & V1).
    eapply Rle_trans; [|apply (agreeing_divergence M K (1 / 10 ^ 10) _ V1); lra]. right. unfold kl_divergence. apply sumn_ext. intros k Hk. rewrite (HA r j k Hr Hj Hk). reflexivity. }
  split; [exact U|]. intros other d' HO HOl E. rewrite (C98_loss cats cats' M probs probs' p q) in E by assumption.
  assert (D : d' = mean_divergence M (1 / 10 ^ 10) (length cats) (length cats') p q idx idx' thetas other) by congruence. specialize (LB other HO HOl). lra.
Qed.
Print Assumptions C98_minimum.

(** ** Linear links *)
(** The common items of two two-parameter models are the same items on scales related by theta' = A theta + B. *)
Definition same_items (m m' : tpl) (idx idx' : list Z) (A B : R) : Prop :=
  forall j, (j < length idx)%nat -> let i := named (tpl_items m) idx j in let i' := named (tpl_items m') idx' j in
    slope (tpl_free m) (tpl_w m) i 0 = slope (tpl_free m') (tpl_w m') i' 0 * A /\ nth i (tpl_b m) 0 = nth i' (tpl_b m') 0 + slope (tpl_free m') (tpl_w m') i' 0 * B.
Lemma named_repeat n idx j : named (length (repeat 2%nat n)) idx j = named n idx j.
Proof. now rewrite repeat_length. Qed.
(** A link function which is that line, for A < 0 its mirror image with [inverted] set, has a loss between
    -2e-10 and 0, and no linked scores whatever have a loss smaller by more than 2e-10. *)
Theorem C98_linear_link : forall m m' idx idx' A B grad f g inverted thetas,
  tpl_wf m -> tpl_wf m' -> tpl_lv m = 1%nat -> tpl_lv m' = 1%nat ->
  common_items (repeat 2%nat (tpl_items m)) (repeat 2%nat (tpl_items m')) idx idx' -> one_column thetas ->
  same_items m m' idx idx' A B -> (forall x, (if inverted : bool then - f x else f x) = A * x + B) ->
  exists d, link_batch_loss link_eps (tpl_items m) (tpl_items m') (tpl_probabilities m) (tpl_probabilities m') idx idx' (link_spline_scale grad f g inverted) thetas = Ok (Some (Fin d)) /\
    - (2 / 10 ^ 10) <= d <= 0 /\
    forall other d', one_column other -> length other = length thetas ->
      link_loss link_eps (tpl_items m) (tpl_items m') (tpl_probabilities m) (tpl_probabilities m') idx idx' thetas other = Ok (Some (Fin d')) -> d - 2 / 10 ^ 10 <= d'.
Proof.
  intros m m' idx idx' A B grad f g inverted thetas W W' L L' HC HT HS Hf.
  assert (Hp : (0 < tpl_items m)%nat /\ (0 < tpl_items m')%nat).
  { destruct HC as (I1 & I2 & I3 & I4). rewrite !repeat_length in *. destruct idx as [|z zs]; [congruence|]. destruct idx' as [|z' zs']; [discriminate|]. inversion I1; inversion I2; subst. unfold item_named in *. lia. }
  pose proof (tpl_row_model m W (proj1 Hp)) as R1. rewrite L in R1. pose proof (tpl_row_model m' W' (proj2 Hp)) as R2. rewrite L' in R2.
  unfold link_batch_loss, link_spline_scale, sc_transform. cbn [bind]. set (linked := map (map (fun t => f t * link_multiplier inverted)) thetas).
  assert (HLn : length linked = length thetas) by apply map_length.
  assert (HL : one_column linked).
  { destruct HT as [Tn T1]. split; [unfold linked; destruct thetas; [congruence|discriminate]|]. unfold linked. apply Forall_forall. intros x Hx. apply in_map_iff in Hx. destruct Hx as (t & <- & Ht). rewrite map_length. rewrite Forall_forall in T1. now apply T1. }
  destruct (C98_minimum _ _ 2 _ _ _ _ idx idx' thetas linked R1 R2 HC HT HL HLn) as (d & E & LB & HU). rewrite !repeat_length in *.
  assert (HA : curves_agree 2 (tpl_items m) (tpl_items m') (tpl_p m) (tpl_p m') idx idx' thetas linked).
  { intros r j k Hr Hj Hk. destruct (HS j Hj) as [Ea Eb]. unfold tpl_p. rewrite L, L'. unfold predictor. cbn [sumn].
    assert (Et : exists x, nth r thetas [] = [x] /\ nth r linked [] = [A * x + B]).
    { destruct HT as [Tn T1]. pose proof (proj1 (Forall_nth _ _) T1 r [] Hr) as Lt. destruct (nth r thetas []) as [|x [|? ?]] eqn:Ex; try discriminate. exists x. split; [reflexivity|].
      apply nth_error_nth. unfold linked. rewrite nth_error_map, (nth_error_nth_lt thetas r [] Hr), Ex. cbn [option_map map]. do 2 f_equal. rewrite <- Hf. unfold link_multiplier. destruct inverted; ring. }
    destruct Et as (x & -> & ->). cbn [nth]. replace (0 + slope (tpl_free m') (tpl_w m') (named (tpl_items m') idx' j) 0 * (A * x + B) + nth (named (tpl_items m') idx' j) (tpl_b m') 0)
      with (0 + slope (tpl_free m) (tpl_w m) (named (tpl_items m) idx j) 0 * x + nth (named (tpl_items m) idx j) (tpl_b m) 0) by (rewrite Ea, Eb; ring). reflexivity. }
  specialize (HU HA). destruct HU as [U HO]. change (INR 2) with (1 + 1) in *. exists d. split; [exact E|]. split; [split; [lra|exact U]|]. intros other d' H1 H2 H3. specialize (HO other d' H1 H2 H3). lra.
Qed.
Print Assumptions C98_linear_link.

(** Conversely agreement on a single common item with a non-zero slope pins the linked score down. *)
Theorem C98_linear_unique : forall m m' idx idx' A B thetas linked,
  tpl_lv m = 1%nat -> tpl_lv m' = 1%nat -> one_column thetas -> one_column linked -> length linked = length thetas ->
  same_items m m' idx idx' A B -> curves_agree 2 (tpl_items m) (tpl_items m') (tpl_p m) (tpl_p m') idx idx' thetas linked ->
  (exists j, (j < length idx)%nat /\ slope (tpl_free m') (tpl_w m') (named (tpl_items m') idx' j) 0 <> 0) ->
  linked = map (fun t => [A * nth 0 t 0 + B]) thetas.
Proof.
  intros m m' idx idx' A B thetas linked L L' [Tn T1] [_ L1] HLn HS HA (j & Hj & Hs). apply nth_error_ext. intro r. rewrite nth_error_map. destruct (Nat.lt_ge_cases r (length thetas)) as [Hr|Hr].
  - rewrite (nth_error_nth_lt linked r []), (nth_error_nth_lt thetas r []) by lia. cbn [option_map]. f_equal.
    pose proof (proj1 (Forall_nth _ _) T1 r [] Hr) as Lt. pose proof (proj1 (Forall_nth _ _) L1 r [] ltac:(lia)) as Ll. specialize (HA r j 1%nat Hr Hj ltac:(lia)). destruct (HS j Hj) as [Ea Eb]. cbv zeta in Ea, Eb.
    destruct (nth r thetas []) as [|x [|? ?]]; try discriminate. destruct (nth r linked []) as [|y [|? ?]]; try discriminate. cbn [nth]. f_equal.
    unfold tpl_p in HA. rewrite L, L' in HA. unfold predictor in HA. cbn [sumn nth] in HA.
    match type of HA with logistic ?u = logistic ?v => assert (E : u = v) by (apply Rle_antisym; apply logistic_le_iff; lra) end. rewrite Ea, Eb in E.
    apply Rmult_eq_reg_l with (slope (tpl_free m') (tpl_w m') (named (tpl_items m') idx' j) 0); [lra|exact Hs].
  - rewrite (proj2 (nth_error_None linked r)) by lia. rewrite (proj2 (nth_error_None thetas r)) by lia. reflexivity.
Qed.
Print Assumptions C98_linear_unique.

Definition ex_from : tpl := {| tpl_lv := 1; tpl_free := [[true]; [true]; [true]]; tpl_w := [2; 4; 1]; tpl_b := [2; 1; 5] |}.
Definition ex_to : tpl := {| tpl_lv := 1; tpl_free := [[true]; [true]]; tpl_w := [2; 1]; tpl_b := [-1; 1] |}.
(** Items 0 and 1 of the first model are items 1 and 0 (here -2) of the second; theta' = 2 theta + 1. *)
Example C98_nonvacuous : tpl_wf ex_from /\ tpl_wf ex_to /\ common_items (repeat 2%nat 3) (repeat 2%nat 2) [0%Z; 1%Z] [1%Z; (-2)%Z] /\
  one_column [[0]; [1]] /\ same_items ex_from ex_to [0%Z; 1%Z] [1%Z; (-2)%Z] 2 1 /\ (forall x, (if false then - (2 * x + 1) else 2 * x + 1) = 2 * x + 1).
Proof.
  split; [unfold tpl_wf; cbn; repeat split; auto; repeat constructor|]. split; [unfold tpl_wf; cbn; repeat split; auto; repeat constructor|].
  split; [split; [|split; [|split; [reflexivity|discriminate]]]; repeat constructor; unfold item_named; cbn; lia|].
  split; [split; [discriminate|repeat constructor]|]. split; [|intro; ring].
  intros [|[|j]] Hj; cbn [length] in Hj; [| |lia]; cbn; change (Pos.to_nat 1) with 1%nat; cbn; split; lra.
Qed.

(** ** What is refused *)
(** Construction succeeds exactly for two models with one latent variable, equally long non-empty lists of
    common items which exist in the first model, and a known method; the object then knows the categories of
    these items. *)
Theorem C98_construction : forall lv lv' cats idx idx' method out,
  link_new lv lv' cats idx idx' method = Ok out <->
  lv = 1%nat /\ lv' = 1%nat /\ method <> LinkOther /\
  exists l l', idx = Some l /\ idx' = Some l' /\ length l = length l' /\ l <> [] /\ Forall (item_named (length cats)) l /\
    length out = length l /\ forall j, (j < length l)%nat -> nth_error out j = nth_error cats (named (length cats) l j).
Proof.
  intros lv lv' cats idx idx' method out. unfold link_new, link_check. split.
  - destruct (Nat.eqb_spec lv lv') as [<-|]; cbn [negb bind]; [|discriminate].
    destruct (Nat.eqb_spec lv 1) as [->|]; cbn [negb bind]; [|discriminate]. destruct idx as [l|]; [|discriminate]. destruct idx' as [l'|]; [|discriminate].
    destruct (Nat.eqb_spec (length l) (length l')) as [El|]; cbn [negb bind]; [|discriminate]. destruct (Nat.ltb_spec (length l) 1) as [|Hl]; cbn [bind]; [discriminate|]. intros H.
    assert (Hm : method <> LinkOther) by (destruct method; [discriminate|discriminate|cbn [bind] in H; discriminate]).
    assert (H' : pick_items (length cats) l cats = Ok out) by (destruct method; [exact H|exact H|congruence]). clear H.
    assert (HN : Forall (item_named (length cats)) l).
    { apply Forall_forall. intros z Hz. destruct (Z_le_gt_dec (- Z.of_nat (length cats)) z) as [A|A]; [destruct (Z_lt_ge_dec z (Z.of_nat (length cats))) as [B|B]; [now split|]|];
        (rewrite (pick_items_refused (length cats) l cats eq_refl) in H'; [discriminate|apply Exists_exists; exists z; split; [exact Hz|unfold item_named; lia]]). }
    split; [reflexivity|]. split; [reflexivity|]. split; [exact Hm|]. exists l, l'. rewrite (pick_items_ok O _ l cats HN eq_refl) in H'. injection H' as <-. rewrite map_length, seq_length.
    split; [reflexivity|]. split; [reflexivity|]. split; [exact El|]. split; [intros ->; cbn in Hl; lia|]. split; [exact HN|]. split; [reflexivity|].
    intros j Hj. rewrite nth_error_map, nth_error_seq by exact Hj. cbn [option_map Nat.add]. symmetry. apply nth_error_nth_lt. now apply named_lt.
  - intros (-> & -> & Hm & l & l' & -> & -> & El & Hl & HN & HLo & Ho). cbn [Nat.eqb negb]. rewrite (proj2 (Nat.eqb_eq _ _) El). cbn [negb]. destruct (Nat.ltb_spec (length l) 1) as [H|_]; [destruct l; [congruence|cbn [length] in H; lia]|].
    assert (E : pick_items (length cats) l cats = Ok out).
    { rewrite (pick_items_ok O _ l cats HN eq_refl). f_equal. apply nth_error_ext. intro j. rewrite nth_error_map. destruct (Nat.lt_ge_cases j (length l)) as [Hj|Hj].
      - rewrite nth_error_seq by exact Hj. cbn [option_map Nat.add]. rewrite Ho by exact Hj. symmetry. apply nth_error_nth_lt. now apply named_lt.
      - rewrite (proj2 (nth_error_None out j)) by lia. rewrite (proj2 (nth_error_None (seq 0 (length l)) j)) by (rewrite seq_length; exact Hj). reflexivity. }
    destruct method; cbn [bind]; [exact E|exact E|congruence].
Qed.
Print Assumptions C98_construction.
Example C98_construction_nonvacuous : link_new 1 1 [2%nat; 4%nat] (Some [(-1)%Z]) (Some [7%Z]) LinkSpline = Ok [4%nat] /\ link_new 1 1 [2%nat; 4%nat] (Some [2%Z]) (Some [7%Z]) LinkSpline = Err IndexError.
Proof. split; reflexivity. Qed.
(** Items which do not exist in the second model are only noticed when the loss is computed. *)
Theorem C98_unknown_item : forall cats cats' M M' probs probs' p q idx idx' thetas linked,
  row_model 1 cats M probs p -> row_model 1 cats' M' probs' q -> Forall (item_named (length cats)) idx -> Exists (fun z => ~ item_named (length cats') z) idx' ->
  one_column thetas -> one_column linked ->
  link_loss link_eps (length cats) (length cats') probs probs' idx idx' thetas linked = Err IndexError.
Proof.
  intros cats cats' M M' probs probs' p q idx idx' thetas linked HP HQ HI HX [_ T1] [Ln L1]. eapply bad_target_index; [apply (pick_table 1 cats M probs p); eassumption| | |exact HX].
  - intros E. destruct (HQ linked L1) as [H _]. rewrite E in H. destruct linked; [congruence|discriminate].
  - rewrite (row_model_table 1 cats' M' probs' q linked HQ L1). apply Forall_forall. intros row Hr. apply in_map_iff in Hr. destruct Hr as (t & <- & _). now rewrite map_length, seq_length.
Qed.
Print Assumptions C98_unknown_item.

(** ** Models with different numbers of categories cannot be linked *)
(** If the largest numbers of categories of the two models differ, every loss is an error, whichever items are
    common -- also when these have the same number of categories and the same parameters. *)
Theorem C98_widths_refuted : forall cats cats' M M' probs probs' p q idx idx' thetas linked,
  row_model 1 cats M probs p -> row_model 1 cats' M' probs' q -> common_items cats cats' idx idx' ->
  one_column thetas -> one_column linked -> length linked = length thetas -> M <> M' -> (2 <= M)%nat -> (2 <= M')%nat ->
  link_loss link_eps (length cats) (length cats') probs probs' idx idx' thetas linked = Err RuntimeError.
Proof.
  intros cats cats' M M' probs probs' p q idx idx' thetas linked HP HQ (I1 & I2 & I3 & I4) [Tn T1] [_ L1] HL HM H2 H2'.
  apply (widths_error 1 1 cats cats' M M' probs probs' p q); assumption.
Qed.
Print Assumptions C98_widths_refuted.
Definition ex_wide : poly := {| p_cats := [2%nat; 3%nat]; p_lv := 1; p_free := [[true]; [true]]; p_w := [1; 1]; p_b := [0; 0; 1] |}.
Definition ex_narrow : poly := {| p_cats := [2%nat; 2%nat]; p_lv := 1; p_free := [[true]; [true]]; p_w := [1; 2]; p_b := [0; 1] |}.
(** The first items of two partial credit models are the same item: two categories, slope 1, intercept 0. *)
Example C98_widths_refuted_nonvacuous :
  row_model 1 [2%nat; 3%nat] 3 (gpc_probabilities ex_wide) (soft [2%nat; 3%nat] (gpc_z ex_wide)) /\ row_model 1 [2%nat; 2%nat] 2 (gpc_probabilities ex_narrow) (soft [2%nat; 2%nat] (gpc_z ex_narrow)) /\
  (forall t k, soft [2%nat; 3%nat] (gpc_z ex_wide) [t] 0%nat k = soft [2%nat; 2%nat] (gpc_z ex_narrow) [t] 0%nat k) /\
  common_items [2%nat; 3%nat] [2%nat; 2%nat] [0%Z] [0%Z] /\ link_new 1 1 [2%nat; 3%nat] (Some [0%Z]) (Some [0%Z]) LinkSpline = Ok [2%nat] /\
  link_loss link_eps 2 2 (gpc_probabilities ex_wide) (gpc_probabilities ex_narrow) [0%Z] [0%Z] [[0]] [[0]] = Err RuntimeError.
Proof.
  assert (W1 : poly_wf ex_wide) by (unfold poly_wf; cbn; repeat split; auto; repeat constructor).
  assert (W2 : poly_wf ex_narrow) by (unfold poly_wf; cbn; repeat split; auto; repeat constructor).
  pose proof (gpc_row_model ex_wide W1 ltac:(cbn; lia)) as R1. pose proof (gpc_row_model ex_narrow W2 ltac:(cbn; lia)) as R2.
  assert (HC : common_items [2%nat; 3%nat] [2%nat; 2%nat] [0%Z] [0%Z]) by (split; [|split; [|split; [reflexivity|discriminate]]]; repeat constructor; unfold item_named; cbn; lia).
  split; [exact R1|]. split; [exact R2|]. split.
  - intros t k. unfold soft. cbn [nth]. destruct (Nat.ltb_spec k 2) as [Hk|]; [|reflexivity].
    assert (Z : forall k, (k < 2)%nat -> gpc_z ex_wide [t] 0 k = gpc_z ex_narrow [t] 0 k) by (intros [|[|j]] Hj; [reflexivity|reflexivity|lia]).
    unfold category_probability. cbn [sumn]. now rewrite !Z by lia.
  - split; [exact HC|]. split; [reflexivity|].
    apply (C98_widths_refuted [2%nat; 3%nat] [2%nat; 2%nat] 3 2 _ _ _ _ [0%Z] [0%Z] [[0]] [[0]] R1 R2 HC); try lia; try reflexivity; split; try discriminate; repeat constructor.
Qed.
