(** Infit and outfit. *)
From Verif Require Import Base BaseFacts RBase RFacts M_Data M_Logit M_Lik M_Est M_Stat M_Grid M_Eval S_Lik S_Est S_Eval P_Lik3 P_Logit4 P_Stat1 P_Stat3 P_Stat5 P_Stat8 P_Eval1 P_Eval2 P_Eval3 P_Eval4.
Local Open Scope R_scope.

Lemma finite_filter {A} (a : A -> bool) (g : A -> R) l : finite (map (fun x => if a x then None else Some (g x)) l) = map g (filter (fun x => negb (a x)) l).
Proof. induction l as [|x l IH]; [reflexivity|]. unfold finite in *. cbn [map flat_map filter]. destruct (a x); cbn [negb app map]; rewrite IH; reflexivity. Qed.
Lemma present_filter {A} (a : A -> bool) (g : A -> fl) l : (forall x, a x = false -> g x <> None) ->
  present_fl (map (fun x => if a x then None else g x) l) = map g (filter (fun x => negb (a x)) l).
Proof.
  intros H. induction l as [|x l IH]; [reflexivity|]. unfold present_fl in *. cbn [map filter]. destruct (a x) eqn:E; cbn [negb map]; [exact IH|].
  destruct (g x) as [e|] eqn:G; [|elim (H x E); exact G]. rewrite IH. reflexivity.
Qed.
Lemma average_mean p : average_score INR p = mean_score p.
Proof. unfold average_score, mean_score. apply sumn_ext. intros. ring. Qed.
Lemma average_indicator p j : (j < length p)%nat -> average_score (fun k => if (Z.of_nat j =? Z.of_nat k)%Z then 1 else 0) p = nth j p 0.
Proof.
  intros H. unfold average_score. rewrite (sumn_single (length p) j (fun k => nth k p 0 * (if (Z.of_nat j =? Z.of_nat k)%Z then 1 else 0)) H) by (intros k _ N; destruct (Z.eqb_spec (Z.of_nat j) (Z.of_nat k)); [lia|ring]).
  rewrite Z.eqb_refl. ring.
Qed.
Lemma average_score_ext s s' p : (forall k, s k = s' k) -> average_score s p = average_score s' p.
Proof. intros H. unfold average_score. apply sumn_ext. intros. rewrite H. reflexivity. Qed.
Lemma spread_ext s s' p : (forall k, s k = s' k) -> score_spread s p = score_spread s' p.
Proof. intros H. unfold score_spread. apply sumn_ext. intros. rewrite H, (average_score_ext s s') by exact H. reflexivity. Qed.
Lemma spread_indicator p j : (j < length p)%nat -> rsum p = 1 ->
  score_spread (fun k => if (Z.of_nat j =? Z.of_nat k)%Z then 1 else 0) p = nth j p 0 * (1 - nth j p 0).
Proof.
  intros H S. unfold score_spread. rewrite average_indicator by exact H. set (q := nth j p 0).
  rewrite (sumn_ext _ _ (fun k => q ^ 2 * nth k p 0 + nth k p 0 * (if (Z.of_nat j =? Z.of_nat k)%Z then 1 - 2 * q else 0))).
  2:{ intros k _. destruct (Z.of_nat j =? Z.of_nat k)%Z; ring. }
  rewrite sumn_plus, sumn_scal, <- (rsum_nth p), S.
  rewrite (sumn_single (length p) j (fun k => nth k p 0 * (if (Z.of_nat j =? Z.of_nat k)%Z then 1 - 2 * q else 0)) H).
  - rewrite Z.eqb_refl. fold q. ring.
  - intros k _ N. destruct (Z.eqb_spec (Z.of_nat j) (Z.of_nat k)); [lia|ring].
Qed.
Lemma osum_mapi (f : nat -> R -> R) p : forall o, osum (mapi_from o (fun k x => Some (f k x)) p) = Some (sumn (length p) (fun k => f (o + k)%nat (nth k p 0))).
Proof.
  induction p as [|x p IH]; intros o; [reflexivity|]. cbn [mapi_from osum length]. rewrite IH. cbn [olift2]. f_equal. rewrite sumn_S_first. cbn [nth]. rewrite Nat.add_0_r. f_equal.
  apply sumn_ext. intros k _. f_equal. lia.
Qed.
Lemma score_variance_spread p : score_variance p (Some (mean_score p)) = Some (score_spread INR p).
Proof.
  unfold score_variance, mapi. cbn [option_map olift2]. rewrite (osum_mapi (fun k x => (INR k - mean_score p) ^ 2 * x)). f_equal. unfold score_spread. apply sumn_ext. intros k _. cbn [Nat.add].
  rewrite average_mean. ring.
Qed.
Lemma fdiv_fin' x y : y <> 0 -> fdiv (Some (Fin x)) (Some (Fin y)) = Some (Fin (x / y)).
Proof. intros H. unfold fdiv. destruct (Req_EM_T y 0); [contradiction|reflexivity]. Qed.

Section Fit.
  Variables (N I M : nat) (pf : nat -> nat -> list R) (cf : nat -> nat -> cell) (mc : option (list Z)).
  Hypothesis (HM : (0 < M)%nat) (HL : forall n i, (n < N)%nat -> (i < I)%nat -> length (pf n i) = M).
  Hypothesis Hlegal : forall n i, (n < N)%nat -> (i < I)%nat -> missing_cell (cf n i) = true \/ exists k, cf n i = Some (Z.of_nat k).
  Hypothesis Hmc : forall key, mc = Some key -> (2 <= M)%nat /\ length key = I /\ (0 < I)%nat /\ (forall z, In z key -> (0 <= z < Z.of_nat M)%Z) /\
    forall n i, (n < N)%nat -> (i < I)%nat -> rsum (pf n i) = 1.
  Notation rows := (grid N I cf).
  Notation probs := (grid N I pf).
  Notation err n i := (cell_error mc rows probs n i).
  Notation spr n i := (cell_spread mc probs n i).
  Let ef n i := Some (average_score (score_of mc i) (pf n i)).
  Let keyf i := match mc with None => None | Some key => Some (nth i key 0%Z) end.
  Lemma key_grid : infit_key I mc = Ok (map keyf (seq 0 I)).
  Proof.
    unfold infit_key, keyf. destruct mc as [key|].
    - destruct (Hmc key eq_refl) as (_ & L & P & _). rewrite L, Nat.eqb_refl. destruct (Nat.eqb_spec I 0); [lia|]. cbn [negb andb]. f_equal. rewrite (list_map_nth 0%Z key) at 1. rewrite map_map, L. reflexivity.
    - f_equal. clear. generalize 0%nat. induction I as [|k IH]; intros o; [reflexivity|]. cbn [repeat seq map]. f_equal. apply IH.
  Qed.
  Lemma expected_grid : expected_item_scores I M mc (some3 probs) = Ok (grid N I ef).
  Proof.
    unfold ef. destruct mc as [key|] eqn:E.
    - destruct (Hmc key eq_refl) as (_ & L & P & Z & _). rewrite expected_mc by assumption. f_equal. apply grid_ext. intros n i Hn Hi. f_equal. symmetry.
      assert (Hz : In (nth i key 0%Z) key) by (apply nth_In; lia). apply Z in Hz.
      rewrite (average_score_ext _ (fun k => if (Z.of_nat (Z.to_nat (nth i key 0%Z)) =? Z.of_nat k)%Z then 1 else 0)).
      + apply average_indicator. rewrite HL by assumption. lia.
      + intros k. unfold score_of. rewrite (nth_indep key (-1)%Z 0%Z) by lia. rewrite Z2Nat.id by lia. reflexivity.
    - rewrite expected_none by assumption. f_equal. apply grid_ext. intros n i Hn Hi. f_equal. symmetry. apply average_mean.
  Qed.
  Lemma square_grid : zip_with (masked_square (map keyf (seq 0 I))) rows (grid N I ef) = grid N I (fun n i => if missing_cell (cf n i) then None else Some (err n i)).
  Proof.
    transitivity (grid N I (fun n i => if missing_cell (cf n i) then None else squared (observed_score (keyf i) (cf n i)) (ef n i))).
    - unfold grid. rewrite zip_with_maps. apply map_ext. intros n. unfold masked_square. rewrite combine_maps, zip_with_maps. reflexivity.
    - apply grid_ext. intros n i Hn Hi. destruct (missing_cell (cf n i)) eqn:E; [reflexivity|]. destruct (Hlegal n i Hn Hi) as [X|(k & C)]; [congruence|].
      unfold cell_error. rewrite !at2_grid by assumption. unfold ef, keyf. rewrite C. unfold observed_score, score_of. destruct mc as [key|] eqn:Em.
      + cbn [squared olift2 option_map]. rewrite Nat2Z.id. destruct (Hmc key eq_refl) as (_ & L & _). rewrite (nth_indep key (-1)%Z 0%Z) by lia. rewrite (Z.eqb_sym (nth i key 0%Z)). reflexivity.
      + cbn [squared olift2 option_map cell_value_r]. rewrite Nat2Z.id, <- INR_IZR_INZ. reflexivity.
  Qed.
  Lemma variance_grid : zip_with (masked_variance (map keyf (seq 0 I))) rows (zip_with (@combine (list R) nanr) probs (grid N I ef)) =
    grid N I (fun n i => if missing_cell (cf n i) then None else Some (spr n i)).
  Proof.
    transitivity (grid N I (fun n i => if missing_cell (cf n i) then None else match keyf i with Some _ => correct_variance (ef n i) | None => score_variance (pf n i) (ef n i) end)).
    - unfold grid. rewrite !zip_with_maps. apply map_ext. intros n. unfold masked_variance. rewrite !combine_maps, zip_with_maps. reflexivity.
    - apply grid_ext. intros n i Hn Hi. destruct (missing_cell (cf n i)) eqn:E; [reflexivity|].
      unfold cell_spread. rewrite !at2_grid by assumption. unfold ef, keyf. destruct mc as [key|] eqn:Em.
      + destruct (Hmc key eq_refl) as (_ & L & P & Z & S). assert (Hz : In (nth i key 0%Z) key) by (apply nth_In; lia). apply Z in Hz.
        cbn [correct_variance option_map]. f_equal.
        assert (X : forall k, score_of (Some key) i k = if (Z.of_nat (Z.to_nat (nth i key 0%Z)) =? Z.of_nat k)%Z then 1 else 0).
        { intros k. unfold score_of. rewrite (nth_indep key (-1)%Z 0%Z) by lia. rewrite Z2Nat.id by lia. reflexivity. }
        rewrite (average_score_ext _ _ _ X), (spread_ext _ _ _ X). rewrite spread_indicator, average_indicator; [reflexivity| | |apply S; assumption]; rewrite HL by assumption; lia.
      + change (score_of None i) with INR. rewrite average_mean. apply score_variance_spread.
  Qed.
  Definition wvalue (n i : nat) : fl := weighted_square (Some (err n i)) (Some (spr n i)).
  Lemma wmse_grid : zip_with (zip_with weighted_square) (grid N I (fun n i => if missing_cell (cf n i) then None else Some (err n i))) (grid N I (fun n i => if missing_cell (cf n i) then None else Some (spr n i))) =
    grid N I (fun n i => if missing_cell (cf n i) then None else wvalue n i).
  Proof. rewrite zip_grid. apply grid_ext. intros n i _ _. destruct (missing_cell (cf n i)); reflexivity. Qed.
  Lemma wvalue_not_nan n i : wvalue n i <> None.
  Proof.
    unfold wvalue, weighted_square, nan_fl, option_map. destruct (Req_EM_T (err n i) 0); [discriminate|]. unfold fdiv. destruct (Req_EM_T (spr n i) 0); [|discriminate].
    destruct (Req_EM_T (err n i) 0); [contradiction|]. discriminate.
  Qed.
  Lemma wvalue_fin n i : (spr n i <> 0 \/ err n i = 0) -> wvalue n i = Some (Fin (err n i / spr n i)).
  Proof.
    intros H. unfold wvalue, weighted_square, nan_fl, option_map. destruct (Req_EM_T (err n i) 0) as [E|E].
    - rewrite E. unfold Rdiv. rewrite Rmult_0_l. reflexivity.
    - apply fdiv_fin'. tauto.
  Qed.
  Definition fit_line {A} (e s : A -> R) (miss : A -> bool) (l : list A) : fl * fl :=
    (fdiv (Some (Fin (rsum (map e (filter (fun x => negb (miss x)) l))))) (Some (Fin (rsum (map s (filter (fun x => negb (miss x)) l))))),
     fmean (map (fun x => weighted_square (Some (e x)) (Some (s x))) (filter (fun x => negb (miss x)) l))).
  Lemma infit_grid lv : infit_outfit M mc probs (Wide I rows) (Some lv) =
    match lv with
    | LAll => Err ValueError
    | LItem => let f i := fit_line (fun n => err n i) (fun n => spr n i) (fun n => missing_cell (cf n i)) (seq 0 N) in
        Ok (map (fun i => fst (f i)) (seq 0 I), map (fun i => snd (f i)) (seq 0 I))
    | LRespondent => let f n := fit_line (fun i => err n i) (fun i => spr n i) (fun i => missing_cell (cf n i)) (seq 0 I) in
        Ok (map (fun n => fst (f n)) (seq 0 N), map (fun n => snd (f n)) (seq 0 N))
    end.
  Proof.
    unfold infit_outfit. cbn [w_rows w_cols]. destruct lv; try reflexivity;
      (rewrite expected_grid; cbn [bind]; rewrite key_grid; cbn [bind];
       replace (match mc with Some _ => (M <? 2)%nat | None => false end) with false
         by (destruct mc as [key|]; [destruct (Hmc key eq_refl) as (X & _); symmetry; apply Nat.ltb_ge; exact X|reflexivity]);
       rewrite !same_shape_grid; cbn [andb]; rewrite square_grid, variance_grid, wmse_grid).
    - rewrite !over_grid, map_map. f_equal. f_equal.
      + rewrite zip_with_maps. apply map_ext. intros i. unfold nansum_r. rewrite !finite_filter. reflexivity.
      + apply map_ext. intros i. unfold fit_line, fnanmean. cbn [snd]. f_equal. apply (present_filter (fun n => missing_cell (cf n i)) (fun n => wvalue n i)). intros. apply wvalue_not_nan.
    - rewrite map_grid. unfold grid. rewrite zip_with_maps. f_equal. f_equal.
      + apply map_ext. intros n. unfold nansum_r. rewrite !finite_filter. reflexivity.
      + apply map_ext. intros n. unfold fit_line, fnanmean. cbn [snd]. f_equal. apply (present_filter (fun i => missing_cell (cf n i)) (fun i => wvalue n i)). intros. apply wvalue_not_nan.
  Qed.
End Fit.

Lemma fit_line_spec {A} (e s : A -> R) miss l : let o := filter (fun x => negb (miss x)) l in
  (o = [] \/ rsum (map s o) <> 0 -> fst (fit_line e s miss l) = infit_of e s o) /\
  ((forall x, In x o -> s x <> 0 \/ e x = 0) -> snd (fit_line e s miss l) = outfit_of e s o).
Proof.
  intros o. unfold fit_line, infit_of, outfit_of. cbn [fst snd]. fold o. split.
  - intros [E|E].
    + rewrite E. cbn [map rsum]. unfold fdiv. destruct (Req_EM_T 0 0); [reflexivity|lra].
    + rewrite fdiv_fin' by exact E. destruct o; [cbn in E; lra|reflexivity].
  - intros H. rewrite (map_ext_in _ (fun x => Some (Fin (e x / s x)))).
    + unfold fmean. rewrite map_length. replace (map (fun x => Some (Fin (e x / s x))) o) with (map (fun x => Some (Fin x)) (map (fun x => e x / s x) o)) by apply map_map.
      rewrite P_Lik3.fsum_fin. cbn [fdiv_nat]. destruct o as [|x o']; [reflexivity|]. destruct (Nat.eqb_spec (length (x :: o')) 0) as [E|E]; [discriminate E|reflexivity].
    + intros x Hx. unfold weighted_square, nan_fl, option_map. destruct (Req_EM_T (e x) 0) as [E|E].
      * rewrite E. unfold Rdiv. rewrite Rmult_0_l. reflexivity.
      * apply fdiv_fin'. destruct (H x Hx); tauto.
Qed.
