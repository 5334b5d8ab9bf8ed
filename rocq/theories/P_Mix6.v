(** Lemmas: small samples in cross-validation, the integration grid. *)
From Verif Require Import Base BaseFacts RBase RFacts M_Data M_CV M_Logit M_Lik M_Est M_Stat M_Grid M_Eval M_Mix S_Eval S_Mix P_CV P_Lik2 P_Lik3 P_Est1 P_Est3 P_Stat1 P_Stat3 P_Stat5 P_Eval1 P_Eval7 P_Mix1 P_Mix2 P_Mix3 P_Mix4 P_Mix5.
Local Open Scope R_scope.

Lemma chol_first s n : s 0%nat 0%nat <= 0 -> chol (S n) s = None.
Proof.
  intros H. induction n as [|n IH].
  - cbn [chol]. unfold chol_column. cbn [sumn]. destruct (Rlt_dec 0 (s 0%nat 0%nat - 0)); [lra|reflexivity].
  - change (match chol (S n) s with Some L => chol_column s L (S n) | None => None end = None). now rewrite IH.
Qed.
Lemma mvn_errors d m s e : mvn d m s = Err e -> e = ValueError.
Proof. unfold mvn. destruct (_ && _)%bool; [destruct (chol d (entry s))|]; congruence. Qed.
Lemma densities_errors g e : densities g = Err e -> e = ValueError.
Proof.
  unfold densities. induction (combine (g_means g) (g_covs g)) as [|[m s] l IH]; [discriminate|]. cbn [mapM fst snd].
  destruct (mvn (g_features g) m s) as [f|e'] eqn:E; cbn [bind].
  - destruct (mapM _ l) as [fs|e'']; cbn [bind]; [discriminate|]. intros H. apply IH. congruence.
  - intros H. apply mvn_errors in E. congruence.
Qed.
Lemma em_step_errors g data e : em_step g data = Err e -> e = ValueError.
Proof.
  unfold em_step, e_step, weighted_log_probs. fold (densities g). destruct (densities g) as [fs|e'] eqn:E; [discriminate|]. cbn [rmap bind]. intros H. apply densities_errors in E. congruence.
Qed.
Lemma em_errors n g data e : em n g data = Err e -> e = ValueError.
Proof.
  revert e. induction n as [|n IH]; intros e; [discriminate|]. cbn [em]. destruct (em n g data) as [g1|e'] eqn:E; cbn [bind]; [apply em_step_errors|]. intros H. apply IH. congruence.
Qed.
Lemma nextd_single g cs x c : gmix g cs -> In c cs -> wcov cs [x] c 0 0 = 0.
Proof.
  intros HX Hc. pose proof (resp_pos g cs HX c x Hc) as P. unfold wcov, wmean, mass. cbn [map rsum]. field. lra.
Qed.
Lemma next_single g cs x : gmix g cs -> (0 < g_features g)%nat -> densities (next g cs [x]) = Err ValueError.
Proof.
  intros HX HF. pose proof (cs_nonempty g cs HX) as Hne. destruct (densities (next g cs [x])) as [fs|e] eqn:E; [|apply densities_errors in E; now subst].
  exfalso. unfold densities, next in E. cbn [g_features g_means g_covs] in E. rewrite combine_maps in E.
  assert (exists c, nth_error cs 0 = Some c) as [c Hc] by (destruct cs as [|c l]; [congruence|now exists c]).
  destruct (mapM_nth _ _ _ E 0%nat _ (map_nth_error _ 0%nat cs Hc)) as (f & Hf & _). cbn [fst snd] in Hf. apply nth_error_In in Hc.
  unfold mvn in Hf. destruct (g_features g) as [|d]; [lia|]. rewrite chol_first in Hf.
  - destruct (_ && _)%bool; discriminate.
  - unfold entry. cbn [seq map nth fval fin_r]. rewrite (nextd_single g cs x c HX Hc). lra.
Qed.
(** Training on a single row fails (or has failed already). *)
Lemma held_out_single it d start k x val : (1 <= it)%nat -> length start = Z.to_nat k -> held_out it d start k [x] val = Err ValueError.
Proof.
  intros Hit HL. unfold held_out. destruct (gmm_new start k (Z.of_nat d)) as [g0|e] eqn:E0.
  2:{ unfold gmm_new in E0. destruct (k <? 1)%Z; [cbn; congruence|]. destruct (Z.of_nat d <? 1)%Z; [cbn; congruence|]. discriminate. }
  cbn [bind]. destruct (new_shaped _ _ _ _ E0 HL) as (HS & HF & _ & _).
  unfold gmm_fit. cbn [w_rows w_cols length Nat.eqb]. destruct (negb _); [reflexivity|].
  destruct (em it g0 [x]) as [g1|e] eqn:E; [|apply em_errors in E; now subst]. cbn [bind].
  destruct it as [|it]; [lia|]. cbn [em] in E. destruct (em it g0 [x]) as [g|] eqn:Eg; [|discriminate]. cbn [bind] in E.
  assert (HN : [x] <> []) by discriminate. destruct (em_shaped [x] g0 HN HS _ _ Eg) as (S1 & F1 & _).
  destruct (em_step_inv g [x] g1 S1 HN E) as (cs & HX & ->). unfold gmm_log_likelihood, weighted_log_probs. fold (densities (next g cs [x])).
  rewrite next_single; [reflexivity|exact HX|]. congruence.
Qed.
Lemma cv_two it draw last d x y cands : (1 <= it)%nat -> (2 <= length cands)%nat -> (forall c i k, nth_error cands c = Some k -> length (draw c i) = Z.to_nat k) ->
  cv_gmm it draw last (Wide d [x; y]) cands = Err ValueError.
Proof.
  intros Hit HC HD. unfold cv_gmm. destruct cands as [|k1 [|k2 l]] eqn:EC; cbn [length] in HC; try lia.
  assert (E : candidate_score it (draw 0%nat) (Wide d [x; y]) k1 = Err ValueError).
  { unfold candidate_score. cbn [w_rows w_cols]. change (chunk n_folds [x; y]) with [[x]; [y]]. unfold mapiM. cbn [mapiM_from].
    change (others [[x]; [y]] 0) with (Ok [y]). cbn [bind]. rewrite held_out_single; [reflexivity|exact Hit|]. now apply HD. }
  unfold mapiM. cbn [mapiM_from]. rewrite E. reflexivity.
Qed.

Lemma grid_members segments lv scores grid : (2 <= length scores)%nat -> (2 <= segments)%nat -> integration_grid segments lv scores = Ok grid ->
  length grid = (segments ^ lv)%nat /\
  exists lo hi, (forall i, (i < lv)%nat -> least (map (fun t => nth i t 0) scores) (lo i) /\ largest (map (fun t => nth i t 0) scores) (hi i)) /\
    forall t, In t grid <-> length t = lv /\ forall i, (i < lv)%nat ->
      exists s, (s < segments)%nat /\
        nth i t 0 = (lo i - sample_sd (map (fun t => nth i t 0) scores)) +
                    INR s * ((hi i + sample_sd (map (fun t => nth i t 0) scores)) - (lo i - sample_sd (map (fun t => nth i t 0) scores))) / INR (segments - 1).
Proof.
  intros HL HS H. rewrite (grid_form segments lv scores HL) in H. apply ok_inj in H. subst grid.
  set (axis := fun i => linspace (rmin_list (column 0 i scores) - sd (column 0 i scores)) (rmax_list (column 0 i scores) + sd (column 0 i scores)) segments).
  split.
  - rewrite (product_repeat_length segments); [now rewrite map_length, seq_length|]. apply Forall_map, Forall_forall. intros. apply linspace_len.
  - exists (fun i => rmin_list (column 0 i scores)), (fun i => rmax_list (column 0 i scores)). split.
    + intros i Hi. assert (Hne : column 0 i scores <> []) by (destruct scores; [cbn in HL; lia|discriminate]).
      split; [apply (rmin_list_spec _ Hne)|apply (rmax_list_spec _ Hne)].
    + intros t. rewrite in_product.
      assert (AX : forall i v, In v (axis i) <-> exists s, (s < segments)%nat /\ v = (rmin_list (column 0 i scores) - sample_sd (map (fun t => nth i t 0) scores)) +
                    INR s * ((rmax_list (column 0 i scores) + sample_sd (map (fun t => nth i t 0) scores)) - (rmin_list (column 0 i scores) - sample_sd (map (fun t => nth i t 0) scores))) / INR (segments - 1)).
      { intros i v. unfold axis, linspace. rewrite in_map_iff. split.
        - intros (s & <- & Hs). apply in_seq in Hs. exists s. split; [lia|]. unfold Rdiv. rewrite Rmult_assoc. reflexivity.
        - intros (s & Hs & ->). exists s. split; [|apply in_seq; lia]. unfold Rdiv. rewrite Rmult_assoc. reflexivity. }
      split.
      * intros HF. assert (Hlen : length t = lv). { apply Forall2_len in HF. now rewrite map_length, seq_length in HF. }
        split; [exact Hlen|]. intros i Hi. apply AX.
        assert (G : forall (l : list nat) t', Forall2 (fun x l0 => In x l0) t' (map axis l) -> forall i, (i < length l)%nat -> In (nth i t' 0) (axis (nth i l 0%nat))).
        { induction l as [|a l IH]; intros t' HF' i0 Hi0; cbn [length] in Hi0; [lia|]. inversion HF'; subst. destruct i0; [assumption|]. cbn [nth]. apply IH; [assumption|lia]. }
        specialize (G (seq 0 lv) t HF i). rewrite seq_length in G. specialize (G Hi). now rewrite seq_nth in G by exact Hi.
      * intros [Hlen Hc]. assert (G : forall n st t', length t' = n -> (forall i, (i < n)%nat -> In (nth i t' 0) (axis (st + i)%nat)) -> Forall2 (fun x l0 => In x l0) t' (map axis (seq st n))).
        { induction n as [|n IH]; intros st [|a t'] Hl Hi; cbn [length] in Hl; try lia; [constructor|]. cbn [seq map]. constructor.
          - specialize (Hi 0%nat ltac:(lia)). now rewrite Nat.add_0_r in Hi.
          - apply IH; [lia|]. intros i Hin. specialize (Hi (S i) ltac:(lia)). cbn [nth] in Hi. now rewrite Nat.add_succ_r in Hi. }
        apply (G lv 0%nat t Hlen). intros i Hi. apply AX. now apply Hc.
Qed.

(** One feature: training rows with two different values are enough. *)
Definition varied (rows : list (list R)) : Prop := exists x y, In x rows /\ In y rows /\ nth 0 x 0 <> nth 0 y 0.
Lemma new_one start k : (1 <= k)%Z -> exists g, gmm_new start k 1 = Ok g.
Proof. intros Hk. unfold gmm_new. replace (k <? 1)%Z with false by (symmetry; apply Z.ltb_ge; lia). eexists. reflexivity. Qed.
Lemma fit_one it start k train : (1 <= k)%Z -> length start = Z.to_nat k -> Forall (fun r => length r = 1%nat) start -> varied train ->
  exists g0 g, gmm_new start k 1 = Ok g0 /\ gmm_fit it (Wide 1 train) g0 = Ok g /\ plain g.
Proof.
  intros Hk HL HW Ht. destruct (new_one start k Hk) as [g0 HG]. pose proof (plain_new _ _ _ HG HL HW) as HP. destruct (plain_em g0 train HP Ht it) as (g & Hg & Pg).
  exists g0, g. split; [exact HG|]. split; [|exact Pg]. unfold gmm_fit. cbn [w_rows w_cols]. destruct train as [|x l]; [destruct Ht as (? & _ & [] & _)|].
  cbn [length Nat.eqb]. rewrite (proj1 (proj2 HP)). exact Hg.
Qed.
Lemma held_out_one it start k train val : (1 <= k)%Z -> length start = Z.to_nat k -> Forall (fun r => length r = 1%nat) start -> varied train ->
  exists x, held_out it 1 start k train val = Ok (fin_r x).
Proof.
  intros Hk HL HW Ht. destruct (fit_one it start k train Hk HL HW Ht) as (g0 & g & H0 & H1 & Pg). unfold held_out. change (Z.of_nat 1) with 1%Z. rewrite H0. cbn [bind]. rewrite H1. cbn [bind].
  destruct (plain_densities g Pg) as [fs Hfs]. destruct (mixture_of g fs (proj1 Pg) Hfs) as (cs & HX & _). eexists. apply (log_likelihood_form g cs HX).
Qed.
Lemma cv_one it draw last rows cands : (2 <= length cands)%nat ->
  (forall c i k, nth_error cands c = Some k -> (1 <= k)%Z /\ length (draw c i) = Z.to_nat k /\ Forall (fun r => length r = 1%nat) (draw c i)) ->
  (forall k, In k cands -> length (last k) = Z.to_nat k /\ Forall (fun r => length r = 1%nat) (last k)) ->
  (forall i, (i < length (chunk 5 rows))%nat -> varied (other_folds (chunk 5 rows) i)) -> varied rows ->
  exists g, cv_gmm it draw last (Wide 1 rows) cands = Ok g /\ plain g.
Proof.
  intros HC HD HL HT HR.
  assert (CS : forall c k, nth_error cands c = Some k -> exists x, candidate_score it (draw c) (Wide 1 rows) k = Ok (fin_r x)).
  { intros c k Hk. unfold candidate_score. cbn [w_rows w_cols]. unfold n_folds. set (chunks := chunk 5 rows) in *.
    assert (EO : forall i, (i < length chunks)%nat -> others chunks i = Ok (other_folds chunks i)).
    { intros i Hi. destruct (others chunks i) as [r|e] eqn:Eo; [f_equal; now apply others_concat|]. exfalso.
      assert (Er : remove_nth i chunks = firstn i chunks ++ skipn (S i) chunks).
      { clear - Hi. revert Hi. generalize chunks. induction i as [|i IH]; intros [|x l] Hi; cbn [length] in Hi; try lia; [reflexivity|]. cbn [remove_nth firstn]. rewrite IH by lia. reflexivity. }
      unfold others in Eo. destruct (remove_nth i chunks) eqn:E; [|discriminate]. destruct (HT i Hi) as (x & _ & Hx & _). unfold other_folds in Hx. rewrite <- Er in Hx. destruct Hx. }
    assert (HV : exists xs, mapiM (fun i val => bind (others chunks i) (fun train => held_out it 1 (draw c i) k train val)) chunks = Ok (map fin_r xs)).
    { unfold mapiM. assert (G : forall l s, (forall j v, nth_error l j = Some v -> (s + j < length chunks)%nat) ->
        exists xs, mapiM_from s (fun i val => bind (others chunks i) (fun train => held_out it 1 (draw c i) k train val)) l = Ok (map fin_r xs)).
      { induction l as [|v l IH]; intros s Hs; [now exists []|]. cbn [mapiM_from]. assert (H0 : (s < length chunks)%nat) by (specialize (Hs 0%nat v eq_refl); lia).
        rewrite EO by exact H0. cbn [bind]. destruct (HD c s k Hk) as (Q1 & Q2 & Q3). destruct (held_out_one it (draw c s) k (other_folds chunks s) v Q1 Q2 Q3 (HT s H0)) as (x & ->). cbn [bind].
        destruct (IH (S s)) as (xs & ->). { intros j w Hj. specialize (Hs (S j) w Hj). lia. } exists (x :: xs). reflexivity. }
      apply G. intros j v Hj. cbn. apply nth_error_Some. congruence. }
    destruct HV as (xs & ->). cbn [bind]. change (Some (Fin 0)) with (fin_r 0). rewrite <- map_repeat, <- map_app. unfold fin_r at 1. rewrite fsum_fin. eexists. reflexivity. }
  assert (MS : exists xs, mapiM (fun c k => candidate_score it (draw c) (Wide 1 rows) k) cands = Ok (map fin_r xs) /\ length xs = length cands).
  { unfold mapiM. assert (G : forall l s, (forall j k, nth_error l j = Some k -> nth_error cands (s + j) = Some k) ->
      exists xs, mapiM_from s (fun c k => candidate_score it (draw c) (Wide 1 rows) k) l = Ok (map fin_r xs) /\ length xs = length l).
    { induction l as [|k l IH]; intros s Hs; [now exists []|]. cbn [mapiM_from]. pose proof (Hs 0%nat k eq_refl) as H0. rewrite Nat.add_0_r in H0. destruct (CS s k H0) as (x & ->). cbn [bind].
      destruct (IH (S s)) as (xs & -> & HX). { intros j w Hj. specialize (Hs (S j) w Hj). now rewrite Nat.add_succ_r in Hs. } exists (x :: xs). cbn [length]. split; [reflexivity|lia]. }
    apply G. auto. }
  destruct MS as (xs & MS & LX). unfold cv_gmm.
  destruct (P_Eval1.rargmax_top xs) as (b & Hb & HT2). { intros ->. cbn in LX. lia. }
  assert (Hbk : exists k, nth_error cands b = Some k). { destruct HT2 as (x & Hx & _). destruct (nth_error cands b) eqn:E; [eauto|]. apply nth_error_None in E. assert (b < length xs)%nat by (apply nth_error_Some; congruence). lia. }
  destruct Hbk as [k Hk]. 
  assert (EC : exists k, In k cands /\ match cands with [] => Err IndexError | [k] => Ok k | _ => bind (mapiM (fun c k => candidate_score it (draw c) (Wide 1 rows) k) cands) (fun avg => bind (fargmax avg) (fun b => match nth_error cands b with Some k => Ok k | None => Err IndexError end)) end = Ok k /\ (1 <= k)%Z).
  { exists k. split; [eapply nth_error_In; eauto|]. split; [|now destruct (HD b 0%nat k Hk)]. rewrite MS. cbn [bind]. unfold M_Eval.rargmax in Hb. change (fun x : R => Some (Fin x)) with fin_r in Hb. rewrite Hb. cbn [bind]. rewrite Hk.
    destruct cands as [|k1 [|k2 l]]; cbn [length] in HC; try lia. reflexivity. }
  destruct EC as (k' & Hin & -> & Hk1). cbn [bind w_cols]. destruct (HL k' Hin) as [L1 L2]. destruct (fit_one it (last k') k' rows Hk1 L1 L2 HR) as (g0 & g & H0 & H1 & HP).
  change (Z.of_nat 1) with 1%Z. rewrite H0. cbn [bind]. eauto.
Qed.
