(** Proofs: differences of bit scores and the reported Jacobian. *)
From Coq Require Import Sorted FunctionalExtensionality.
From Verif Require Import Base BaseFacts RBase RFacts P_Pop6 M_Mono M_Lik M_Est M_Stat M_Grid S_Grid P_Mono8 P_Stat8 P_Grid1 P_Grid5 P_Grid7 S_Mass P_Mass P_Iw3 S_Bit P_Bit1 P_Bit2 P_Bit3 S_Rate T_Grid T_Bit.
Import M_Est List.
Local Open Scope R_scope.

(** ** Slopes of the entropies *)
Definition entropy_slope (ps ds : list (R -> R)) (t : R) : R :=
  - rsum (zip_with (fun q d => if Req_EM_T q 0 then 0 else ln q / ln 2 * d) (map (fun Q => Q t) ps) (map (fun d => d t) ds)).
Lemma continuity_same f g x : (forall z, f z = g z) -> continuity_pt f x -> continuity_pt g x.
Proof. intros E. replace g with f by (apply functional_extensionality; exact E). exact (fun H => H). Qed.
Lemma slopes_zero ps ds t : Forall2 smooth_category ps ds -> (forall t, rsum (map (fun Q => Q t) ps) = 1) -> rsum (map (fun d => d t) ds) = 0.
Proof.
  intros H S1. apply (derivable_pt_lim_uniq (fun x => rsum (map (fun Q => Q x) ps)) t).
  - clear S1. induction H as [|Q d ps ds (HD & _) H IH]; cbn [map rsum]; [apply derivable_pt_lim_const|]. apply (derivable_pt_lim_plus Q); [apply HD|exact IH].
  - apply (derivable_ext (fun _ => 1)); [intro z; symmetry; apply S1|apply derivable_pt_lim_const].
Qed.
Lemma regular_at t ps ds : Forall2 smooth_category ps ds -> Forall2 (regular_category t) ps (map (fun d => d t) ds).
Proof. induction 1 as [|Q d ps ds (HD & _ & HP) H IH]; cbn [map]; constructor; [|exact IH]. split; [apply HD|]. destruct HP as [Z|HP]; [now left|right; apply HP]. Qed.
Lemma entropy_slope_deriv ps ds t : Forall2 smooth_category ps ds -> (forall t, rsum (map (fun Q => Q t) ps) = 1) ->
  derivable_pt_lim (fun x => bits (map (fun Q => Q x) ps)) t (entropy_slope ps ds t).
Proof.
  intros H S1. pose proof (bits_derivative t ps _ (regular_at t ps ds H)) as D. rewrite (slopes_zero ps ds t H S1) in D. unfold Rdiv in D at 2. rewrite Rmult_0_l, Rminus_0_r in D. exact D.
Qed.
Lemma entropy_slope_cont ps ds t : Forall2 smooth_category ps ds -> continuity_pt (entropy_slope ps ds) t.
Proof.
  intro H. apply (continuity_pt_opp (fun t => rsum (zip_with _ (map (fun Q => Q t) ps) (map (fun d => d t) ds)))).
  induction H as [|Q d ps ds (HD & HC & HP) H IH]; cbn [map zip_with rsum]; [apply continuity_pt_const; intros ? ?; reflexivity|].
  apply (continuity_pt_plus (fun t => if Req_EM_T (Q t) 0 then 0 else ln (Q t) / ln 2 * d t)); [|exact IH]. destruct HP as [Z|HP].
  - apply (continuity_same (fun _ => 0)); [|apply continuity_pt_const; intros ? ?; reflexivity]. intro z. destruct (Req_EM_T (Q z) 0) as [_|N]; [reflexivity|exfalso; apply N, Z].
  - apply (continuity_same (fun z => ln (Q z) * (/ ln 2 * d z))).
    + intro z. pose proof (HP z). destruct (Req_EM_T (Q z) 0); [lra|]. unfold Rdiv. ring.
    + apply (continuity_pt_mult (fun z => ln (Q z))); [|apply continuity_pt_scal; apply HC].
      apply derivable_continuous_pt. exists (d t / Q t). apply P_Stat8.log_derivative; [apply HD|apply HP].
Qed.
Definition slope_of (P D : list (list (R -> R))) (i : nat) (t : R) : R := entropy_slope (nth i P []) (nth i D []) t.
Lemma items_length P D : smooth_items P D -> length P = length D.
Proof. induction 1; cbn; congruence. Qed.
Lemma items_nth P D i : smooth_items P D -> (i < length P)%nat -> Forall2 smooth_category (nth i P []) (nth i D []) /\ forall t, rsum (map (fun Q => Q t) (nth i P [])) = 1.
Proof.
  intro H. revert i. induction H as [|ps ds P D HH H IH]; intros i Hi; cbn [length] in Hi; [lia|]. destruct i as [|i]; cbn [nth]; [exact HH|]. apply IH. lia.
Qed.
Lemma jacobian_value mult P D t : smooth_items P D ->
  bit_jacobian mult (seq 0 (length D)) (at_score t P) (at_score t D) = Ok (Some (Fin (mult * sumn (length P) (fun i => Rabs (slope_of P D i t))))).
Proof.
  intro H. assert (H' : Forall2 (fun ps ds => Forall2 (regular_category t) ps ds /\ rsum ds = 0) P (at_score t D)).
  { unfold at_score. induction H as [|ps ds P D (A & B) H IH]; cbn [map]; constructor; [|exact IH]. split; [now apply regular_at|now apply slopes_zero with (ps := ps)]. }
  destruct (jacobian_all mult t P (at_score t D) H') as (dE & F & E). unfold at_score in E at 1. rewrite map_length in E. unfold at_score at 1. rewrite E. do 4 f_equal. clear E H'.
  assert (G : dE = map (fun i => slope_of P D i t) (seq 0 (length P))).
  { revert dE F. unfold slope_of. induction H as [|ps ds P D (A & B) H IH]; intros dE F; inversion F as [|? d0 ? dE' F1 F2]; subst; [reflexivity|]. cbn [length seq map nth]. f_equal.
    - apply (derivable_pt_lim_uniq _ _ _ _ F1). now apply entropy_slope_deriv.
    - rewrite (IH _ F2) at 1. rewrite <- seq_shift, map_map. reflexivity. }
  rewrite G, map_map. apply rsum_index; [now rewrite map_length, seq_length|]. intros i Hi. rewrite nth_error_map_seq by exact Hi. reflexivity.
Qed.
Lemma test_smooth mult P D lo hi : smooth_items P D ->
  smooth_on (length P) (fun v => test_bits P (zip_with Rmult (upd 0 v (repeat 0 1)) [mult])) (fun i v => mult * slope_of P D i (v * mult)) lo hi.
Proof.
  intro H. split; [intro v; unfold test_bits, at_score; now rewrite !map_length|]. intros i Hi v _. destruct (items_nth P D i H Hi) as [A B]. split.
  - apply (derivable_ext (fun u => (fun x => bits (map (fun Q => Q x) (nth i P []))) ((fun w => w * mult) u))).
    + intro z. unfold test_bits, at_score. cbn [repeat upd zip_with nth]. rewrite map_map. symmetry. apply nth_error_nth. rewrite nth_error_map, (nth_error_nth_lt P i []) by exact Hi. reflexivity.
    + replace (mult * slope_of P D i (v * mult)) with (slope_of P D i (v * mult) * mult) by ring. apply (derivable_pt_lim_comp (fun w => w * mult) (fun x => bits (map (fun Q => Q x) (nth i P [])))); [|now apply entropy_slope_deriv].
      assert (DM : derivable_pt_lim (fun w => w * mult) v (1 * mult + v * 0)) by (apply (derivable_pt_lim_mult (fun w => w) (fun _ => mult)); [apply derivable_pt_lim_id|apply derivable_pt_lim_const]).
      replace (1 * mult + v * 0) with mult in DM by ring. exact DM.
  - apply continuity_pt_scal. apply (continuity_pt_comp (fun w => w * mult) (slope_of P D i)); [|now apply entropy_slope_cont].
    apply (continuity_pt_mult (fun w => w) (fun _ => mult)); [apply derivable_continuous_pt, derivable_pt_id|apply continuity_pt_const; intros ? ?; reflexivity].
Qed.

(** ** Differences of scores *)
Lemma variation_join (f : R -> list R) s l m : variation f ((s :: l) ++ m) = variation f (s :: l) + variation f (last l s :: m).
Proof.
  revert s. induction l as [|b l IH]; intro s.
  - cbn [app last]. change (variation f [s]) with 0. lra.
  - change ((s :: b :: l) ++ m) with (s :: (b :: l) ++ m). change (variation f (s :: (b :: l) ++ m)) with (gap (f s) (f b) + variation f ((b :: l) ++ m)).
    change (variation f (s :: b :: l)) with (gap (f s) (f b) + variation f (b :: l)). rewrite IH. replace (last (b :: l) s) with (last l b); [lra|].
    clear. destruct l as [|c l]; [reflexivity|]. change (last (b :: c :: l) s) with (last (c :: l) s). revert c. induction l as [|e l IH]; intro c; [reflexivity|]. apply (IH e).
Qed.
Lemma sorted_join l m : StronglySorted Rlt l -> StronglySorted Rlt m -> (forall x y, In x l -> In y m -> x < y) -> StronglySorted Rlt (l ++ m).
Proof.
  induction 1 as [|a l S IH F]; intros Sm H; [exact Sm|]. cbn [app]. constructor; [apply IH; [exact Sm|]; intros x y Hx Hy; apply H; [now right|exact Hy]|].
  apply Forall_app. split; [exact F|]. apply Forall_forall. intros y Hy. apply H; [now left|exact Hy].
Qed.
Lemma score_difference ent gp medians start bounds thetas j i k x y : (1 <= gp)%nat -> (j < length start)%nat ->
  nth_error (column 0 j thetas) i = Some x -> nth_error (column 0 j thetas) k = Some y -> nth j start 0 <= x -> x <= y ->
  exists a b c, nth_error (nth j (bit_scores ent gp medians start bounds thetas) []) i = Some a /\
    nth_error (nth j (bit_scores ent gp medians start bounds thetas) []) k = Some b /\
    nth_error (nth j (bit_scores ent gp medians (upd j x start) bounds thetas) []) k = Some c /\ b = a + c.
Proof.
  intros G J X Y Hs Hxy. assert (J' : (j < length (upd j x start))%nat) by (rewrite upd_length; exact J).
  destruct (C42_score ent gp medians start bounds thetas j i x G J X) as (p & Ep & Sp & Ip).
  destruct (C42_score ent gp medians start bounds thetas j k y G J Y) as (q & Eq & Sq & Iq).
  destruct (C42_score ent gp medians (upd j x start) bounds thetas j k y G J' Y) as (r & Er & Sr & Ir).
  assert (Ex : nth j (upd j x start) 0 = x) by (apply nth_error_nth, nth_error_upd_eq; exact J). rewrite Ex in Ir.
  set (s := nth j start 0) in *. set (lo := fst (nth j bounds (0, 0))) in *. set (hi := snd (nth j bounds (0, 0))) in *. rewrite !Rmax_left in * by lra.
  destruct (points_shape gp lo hi s x (column 0 j thetas) p Hs (nth_error_In _ _ X) Sp Ip) as (l & -> & El).
  destruct (points_shape gp lo hi x y (column 0 j thetas) r Hxy (nth_error_In _ _ Y) Sr Ir) as (m & -> & Em).
  exists (variation (fun v => ent (upd j v medians)) (s :: l)), (variation (fun v => ent (upd j v medians)) q), (variation (fun v => ent (upd j v medians)) (x :: m)).
  split; [exact Ep|]. split; [exact Eq|]. split; [exact Er|]. rewrite <- El at 1. rewrite <- variation_join. f_equal. inversion Sr as [|? ? Sm Fm]; subst. rewrite Forall_forall in Fm.
  apply sorted_lt_ext; [exact Sq|apply sorted_join; [exact Sp|exact Sm|]|].
  - intros u v Hu Hv. apply Ip in Hu. specialize (Fm v Hv). lra.
  - intro v. rewrite in_app_iff, Iq, Ip. split.
    + intros [Hv Gv]. destruct (Rle_dec v (last l s)) as [L|L]; [left; now split|right].
      assert (In v (last l s :: m)) as [E|E]; [|lra|exact E]. apply Ir. split; [exact Hv|]. destruct Gv as [-> |[(n & Hn & E)|(c & Hc & E)]]; [lra| |].
      * right. left. exists n. split; [exact Hn|]. unfold Rmax in *. destruct (Rle_dec _ s) in E; [lra|]. rewrite <- E. destruct (Rle_dec v (last l s)); lra.
      * right. right. exists c. split; [exact Hc|]. unfold Rmax in *. destruct (Rle_dec c s) in E; [lra|]. subst v. destruct (Rle_dec c (last l s)); lra.
    + intros [[Hv Gv]|Hv]; [split; [lra|exact Gv]|]. pose proof (Fm v Hv) as Lv. assert (In v (last l s :: m)) as Iv by (now right). apply Ir in Iv. destruct Iv as [Hv' Gv]. split; [exact Hv'|].
      destruct Gv as [-> |[(n & Hn & E)|(c & Hc & E)]]; [lra| |].
      * right. left. exists n. split; [exact Hn|]. unfold Rmax in *. destruct (Rle_dec _ (last l s)) in E; [lra|]. rewrite <- E. destruct (Rle_dec v s); lra.
      * right. right. exists c. split; [exact Hc|]. unfold Rmax in *. destruct (Rle_dec c (last l s)) in E; [lra|]. subst v. destruct (Rle_dec c s); lra.
Qed.
Lemma integral_mean n h x y v : x <= y -> absolute_integral n h x y v -> exists z, x <= z <= y /\ v = sumn n (fun i => Rabs (h i z)) * (y - x).
Proof.
  intros Hxy (Q & [HA _] & ->). destruct (Req_dec x y) as [<- |N]; [exists x; split; [lra|ring]|].
  destruct (MVT_cor2 Q (fun u => sumn n (fun i => Rabs (h i u))) x y ltac:(lra)) as (c & Ec & Hc).
  - intros c Hc. destruct (HA c Hc) as (pr & E). rewrite E. unfold derive_pt. destruct pr as [l Hl]. exact Hl.
  - exists c. split; [lra|exact Ec].
Qed.
