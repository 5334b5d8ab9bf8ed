(** Property theorems C112: splines of several variables. *)
From Verif Require Import Base BaseFacts RBase M_Data M_Logit M_Mono M_Est M_Spline M_SplineT P_Spline3 P_Spline4 P_SplineT P_Link S_Link S_Spline S_SplineT T_Spline.
Import List.
Local Open Scope R_scope.

(** Two variables on [0, 1], two bins each, different parameters. *)
Definition pair_spline : splines := {| sv_spline := unit_spline; sv_w := [[2; -1]; [0; 4]]; sv_h := [[-3; 1]; [1; 1]]; sv_d := [[5]; [-2]] |}.
Lemma pair_wf : forall j, (j < 2)%nat -> rqs_wf (variable pair_spline j).
Proof. intros j H. destruct j as [|[|j]]; [| |lia]; apply new_wf; cbn; try lia; lra. Qed.
Lemma pair_variables : variables pair_spline 2.
Proof. repeat split. Qed.
Lemma pair_fit : bins_fit (sv_spline pair_spline).
Proof. apply (wf_bins_fit pair_spline 2); [lia|exact pair_wf]. Qed.
Lemma pair_computes inverse : exists F L, forall j, (j < 2)%nat -> computes (variable pair_spline j) inverse (F j) (L j).
Proof. apply (cellwise_choice 2 (fun j F L => computes (variable pair_spline j) inverse F L)). intros j H. apply computes_exists. now apply pair_wf. Qed.
(** Three respondents: inside, outside on both sides, on a bound. *)
Definition three_rows : list (list (option R)) := [[Some (1 / 3); Some (7 / 2)]; [Some (-2); Some (1 / 5)]; [Some 1; Some 0]].
Lemma three_numbers : numbers 2 three_rows.
Proof. repeat constructor; discriminate. Qed.

(** Column [j] is transformed by the spline of variable [j], cell by cell: no row and no column influences another. *)
Theorem C112_cellwise : forall m (inverse : bool) V inputs F L, variables m V -> bins_fit (sv_spline m) -> numbers V inputs ->
  (forall j, (j < V)%nat -> computes (variable m j) inverse (F j) (L j)) ->
  splines_forward m inverse V inputs = Ok (cellwise F inputs, cellwise L inputs).
Proof. exact forward_cellwise. Qed.
Print Assumptions C112_cellwise.
Example C112_cellwise_nonvacuous : exists F L, variables pair_spline 2 /\ bins_fit (sv_spline pair_spline) /\ numbers 2 three_rows /\
  (forall j, (j < 2)%nat -> computes (variable pair_spline j) true (F j) (L j)).
Proof. destruct (pair_computes true) as (F & L & H). exists F, L. split; [exact pair_variables|]. split; [exact pair_fit|]. split; [exact three_numbers|exact H]. Qed.

(** Forward and back, and back and forward, whatever the parameters. *)
Theorem C112_round_trip : forall m (inverse : bool) V inputs, variables m V -> (forall j, (j < V)%nat -> rqs_wf (variable m j)) -> numbers V inputs -> (0 < V)%nat ->
  exists outs logs, splines_forward m inverse V inputs = Ok (outs, logs) /\
    exists logs', splines_forward m (negb inverse) V outs = Ok (inputs, logs') /\
    forall i j l l', nth_error (nth i logs []) j = Some (Some l) -> nth_error (nth i logs' []) j = Some (Some l') -> l' = - l.
Proof.
  intros m inverse V inputs HV HW HN V0. pose proof (wf_bins_fit m V V0 HW) as HB.
  destruct (cellwise_choice V (fun j F L => computes (variable m j) inverse F L)) as (F & L & HF); [intros; now apply computes_exists, HW|].
  destruct (cellwise_choice V (fun j F L => computes (variable m j) (negb inverse) F L)) as (G & M & HG); [intros; now apply computes_exists, HW|].
  assert (Q : forall j x, (j < V)%nat -> rq_transform (variable m j) (negb inverse) (F j x) = Ok (x, - L j x)).
  { intros j x Hj. pose proof (HF j Hj x) as E. destruct inverse; cbn [negb].
    - pose proof (C40_inverse_partial (variable m j) (F j x) x (- L j x) (HW j Hj)) as I. rewrite Ropp_involutive in I. apply I, E.
    - now apply (C40_inverse_partial (variable m j) x (F j x) (L j x) (HW j Hj)). }
  exists (cellwise F inputs), (cellwise L inputs). split; [now apply forward_cellwise|]. exists (cellwise M (cellwise F inputs)). split.
  - rewrite (forward_cellwise m (negb inverse) V (cellwise F inputs) G M HV HB (numbers_cellwise V inputs F HN) HG). f_equal. f_equal. apply (cellwise_comp V).
    + eapply Forall_impl; [|exact HN]. now intros a [H _].
    + intros j x Hj. pose proof (HG j Hj (F j x)) as E. rewrite (Q j x Hj) in E. congruence.
  - intros i j l l' H1 H2. unfold cellwise in H1, H2. rewrite map_map in H2. destruct (Nat.lt_ge_cases i (length inputs)) as [Li|Li]; [|rewrite nth_overflow in H1 by (rewrite map_length; exact Li); destruct j; discriminate].
    destruct (nth_error inputs i) as [row|] eqn:Er; [|apply nth_error_None in Er; lia].
    rewrite (nth_error_nth (map (mapi (fun j x => option_map (L j) x)) inputs) i [] (x := mapi (fun j x => option_map (L j) x) row)) in H1 by now rewrite nth_error_map, Er.
    rewrite (nth_error_nth (map (fun r => mapi (fun j x => option_map (M j) x) (mapi (fun j x => option_map (F j) x) r)) inputs) i [] (x := mapi (fun j x => option_map (M j) x) (mapi (fun j x => option_map (F j) x) row))) in H2 by now rewrite nth_error_map, Er.
    rewrite !nth_error_mapi in *. destruct (nth_error row j) as [x|] eqn:Ex; [|discriminate]. cbn [option_map] in *. destruct x as [x|]; [|discriminate]. cbn [option_map] in *. injection H1 as <-. injection H2 as <-.
    assert (Lj : (j < V)%nat). { unfold numbers in HN. rewrite Forall_forall in HN. destruct (HN row (nth_error_In _ _ Er)) as [E _]. rewrite <- E. apply nth_error_Some. congruence. }
    pose proof (HG j Lj (F j x)) as E. rewrite (Q j x Lj) in E. congruence.
Qed.
Print Assumptions C112_round_trip.
Example C112_round_trip_nonvacuous : variables pair_spline 2 /\ (forall j, (j < 2)%nat -> rqs_wf (variable pair_spline j)) /\ numbers 2 three_rows /\ (0 < 2)%nat.
Proof. split; [exact pair_variables|]. split; [exact pair_wf|]. split; [exact three_numbers|lia]. Qed.

(** The log-densities of a training batch: each respondent's depend on that respondent's scores alone. *)
Theorem C112_batch : forall m g V batch F L, variables m V -> bins_fit (sv_spline m) -> numbers V batch ->
  (forall j, (j < V)%nat -> computes (variable m j) false (F j) (L j)) ->
  flow_batch_log_prob m g V batch = Ok (cellwise (fun j x => g (F j x) + L j x) batch).
Proof.
  intros m g V batch F L HV HB HN HC. unfold flow_batch_log_prob. rewrite (forward_cellwise m false V batch F L HV HB HN HC). cbn [bind fst snd]. f_equal. clear. unfold cellwise.
  induction batch as [|row batch IH]; [reflexivity|]. cbn [map zip_with]. rewrite IH. f_equal. apply nth_error_ext. intro i. rewrite nth_error_zip_with, !nth_error_mapi. destruct (nth_error row i) as [[x|]|]; reflexivity.
Qed.
Print Assumptions C112_batch.
Example C112_batch_nonvacuous : exists F L, variables pair_spline 2 /\ bins_fit (sv_spline pair_spline) /\ numbers 2 three_rows /\
  (forall j, (j < 2)%nat -> computes (variable pair_spline j) false (F j) (L j)).
Proof. destruct (pair_computes false) as (F & L & H). exists F, L. split; [exact pair_variables|]. split; [exact pair_fit|]. split; [exact three_numbers|exact H]. Qed.

(** Too many bins for the minimum size: refused as soon as one cell is between the bounds. *)
Theorem C112_too_many : forall m (inverse : bool) V inputs, variables m V -> Forall (fun row => length row = V) inputs -> ~ bins_fit (sv_spline m) ->
  some_inside (if inverse then rq_lo_out (sv_spline m) else rq_lo (sv_spline m)) (if inverse then rq_hi_out (sv_spline m) else rq_hi (sv_spline m)) inputs ->
  splines_forward m inverse V inputs = Err ValueError.
Proof. exact forward_too_many. Qed.
Print Assumptions C112_too_many.
Example C112_too_many_nonvacuous : exists m, variables m 1 /\ Forall (fun row => length row = 1%nat) [[Some 2]; [Some (1 / 2)]] /\ ~ bins_fit (sv_spline m) /\
  some_inside (rq_lo (sv_spline m)) (rq_hi (sv_spline m)) [[Some 2]; [Some (1 / 2)]].
Proof.
  exists {| sv_spline := rqs_new 50 0 1 0 1 (1 / 40) (1 / 1000) (1 / 1000); sv_w := [repeat 0 50]; sv_h := [repeat 0 50]; sv_d := [repeat 0 49] |}. split; [repeat split|]. split; [repeat constructor|]. split.
  - unfold bins_fit. cbn [sv_spline rqs_new rq_min_w rq_bins]. rewrite INR50. lra.
  - exists [Some (1 / 2)], (1 / 2). split; [right; now left|]. split; [now left|]. cbn [sv_spline rqs_new rq_lo rq_hi]. lra.
Qed.

(** Refuted for a missing score: one NaN anywhere and the call raises for all respondents and variables. *)
Theorem C112_nan_refuted : forall m (inverse : bool) V inputs row, variables m V -> Forall (fun row => length row = V) inputs ->
  (forall j, (j < V)%nat -> rqs_wf (variable m j)) -> In row inputs -> In None row -> splines_forward m inverse V inputs = Err RuntimeError.
Proof. exact forward_nan. Qed.
Print Assumptions C112_nan_refuted.
Example C112_nan_refuted_nonvacuous : variables pair_spline 2 /\ Forall (fun row => length row = 2%nat) [[Some 0; Some 1]; [Some 5; None]] /\
  (forall j, (j < 2)%nat -> rqs_wf (variable pair_spline j)) /\ In [Some 5; None] [[Some 0; Some 1]; [Some 5; None]] /\ In None [Some 5; None].
Proof. split; [exact pair_variables|]. split; [repeat constructor|]. split; [exact pair_wf|]. split; [right; now left|right; now left]. Qed.

(** Refuted for a matrix with another number of columns: not refused when every cell is beyond the bounds. *)
Theorem C112_columns_refuted :
  (forall m (inverse : bool) cols inputs, Forall (fun row => length row = cols) inputs -> length (sv_w m) <> cols ->
    some_inside (if inverse then rq_lo_out (sv_spline m) else rq_lo (sv_spline m)) (if inverse then rq_hi_out (sv_spline m) else rq_hi (sv_spline m)) inputs ->
    splines_forward m inverse cols inputs = Err IndexError) /\
  (forall m cols inputs, numbers cols inputs ->
    (forall row x, In row inputs -> In (Some x) row -> rq_hi (sv_spline m) < x) ->
    splines_forward m false cols inputs =
      Ok (cellwise (fun _ x => rq_hi_out (sv_spline m) + (x - rq_hi (sv_spline m)) * rq_slope (sv_spline m)) inputs, cellwise (fun _ _ => 0) inputs)).
Proof.
  split.
  - intros m inverse cols inputs HR HV (row & x & H1 & H2 & H3). exact (forward_columns m inverse cols inputs row (Some x) HR HV H1 H2 H3).
  - intros m cols inputs HN HX.
    assert (HR : Forall (fun row => length row = cols) inputs) by (eapply Forall_impl; [|exact HN]; now intros a [H _]).
    assert (HC : forall x, In x (concat inputs) -> exists y, x = Some y /\ rq_hi (sv_spline m) < y).
    { intros x Hx. apply in_concat in Hx as (row & Hr & Hx). unfold numbers in HN. rewrite Forall_forall in HN. destruct (HN row Hr) as [_ HS]. rewrite Forall_forall in HS. destruct x as [x|]; [|now specialize (HS _ Hx)]. exists x. split; [reflexivity|]. now apply (HX row). }
    rewrite forward_unfold. cbv zeta. destruct (existsb _ _) eqn:E.
    + apply existsb_exists in E as (b & Hb & Eb). subst b. apply In_nth_error in Hb as [p Hp]. rewrite nth_error_zip_with, !nth_error_map in Hp. destruct (nth_error (concat inputs) p) as [x|] eqn:Ex; [|discriminate].
      destruct (HC x (nth_error_In _ _ Ex)) as (y & -> & Hy). cbn [option_map below_c above_c] in Hp. destruct (Rlt_dec (rq_hi (sv_spline m)) y); [|lra]. destruct (Rlt_dec y (rq_lo (sv_spline m))); discriminate.
    + assert (R : forall f : option R -> option R, map (fun i => firstn cols (skipn (i * cols) (map f (concat inputs)))) (seq 0 (length inputs)) = map (map f) inputs).
      { intro f. rewrite concat_map, <- (map_length (map f) inputs). apply flat_rows. apply Forall_forall. intros r Hr. apply in_map_iff in Hr as (r0 & <- & Hr0). rewrite map_length. rewrite Forall_forall in HR. now apply HR. }
      assert (C : forall f, map (map (option_map f)) inputs = cellwise (fun _ => f) inputs).
      { intro f. unfold cellwise. apply map_ext. intro r. apply nth_error_ext. intro i. rewrite nth_error_map, nth_error_mapi. reflexivity. }
      f_equal. f_equal.
      * rewrite <- C, <- R. apply map_ext. intro i. f_equal. f_equal. apply nth_error_ext. intro p. rewrite !nth_error_where, !nth_error_map. destruct (nth_error (concat inputs) p) as [x|] eqn:Ex; [|reflexivity].
        destruct (HC x (nth_error_In _ _ Ex)) as (y & -> & Hy). cbn [option_map above_c]. destruct (Rlt_dec (rq_hi (sv_spline m)) y); [reflexivity|lra].
      * rewrite <- C, <- R. apply map_ext. intro i. f_equal. f_equal. apply nth_error_ext. intro p. rewrite !nth_error_where, !nth_error_map, nth_error_zip_with, !nth_error_map. destruct (nth_error (concat inputs) p) as [x|] eqn:Ex; [|reflexivity].
        destruct (HC x (nth_error_In _ _ Ex)) as (y & -> & Hy). cbn [option_map]. now destruct (negb _).
Qed.
Print Assumptions C112_columns_refuted.
Example C112_columns_refuted_nonvacuous : length (sv_w pair_spline) <> 3%nat /\ some_inside (rq_lo (sv_spline pair_spline)) (rq_hi (sv_spline pair_spline)) [[Some 2; Some (1 / 2); Some 3]] /\
  numbers 3 [[Some 2; Some 4; Some 3]] /\
  (forall row x, In row [[Some 2; Some 4; Some 3]] -> In (Some x) row -> rq_hi (sv_spline pair_spline) < x).
Proof.
  split; [discriminate|]. split; [exists [Some 2; Some (1 / 2); Some 3], (1 / 2); split; [now left|]; split; [right; now left|]; cbn; lra|]. split; [repeat constructor; discriminate|].
  intros row x [<-|[]] H. cbn. destruct H as [H|[H|[H|[]]]]; injection H as <-; lra.
Qed.

(** Refuted for training on a constant score, or on one respondent: every batch raises, so that the warning for a loss that
    is not a number is not reached. *)
Theorem C112_constant_refuted : forall m g lv theta d batch, variables m lv -> (forall j, (j < lv)%nat -> rqs_wf (variable m j)) -> (d < lv)%nat ->
  (length theta = 1%nat \/ exists c, Forall (fun t => nth d t 0 = c) theta) ->
  batch <> [] -> incl batch (flow_standardised lv theta) -> flow_batch_log_prob m g lv batch = Err RuntimeError.
Proof.
  intros m g lv theta d batch HV HW Hd HT HB HI. destruct batch as [|row rest] eqn:E; [congruence|]. rewrite <- E in *.
  assert (Hr : In row batch) by (rewrite E; now left). unfold flow_batch_log_prob. rewrite (forward_nan m false lv batch row HV); [reflexivity| |exact HW|exact Hr|].
  - apply Forall_forall. intros r Hin. pose proof (standardised_rows lv theta) as S'. rewrite Forall_forall in S'. apply S', HI, Hin.
  - apply (standardised_nan lv theta d row Hd HT). now apply HI.
Qed.
Print Assumptions C112_constant_refuted.
Example C112_constant_refuted_nonvacuous : variables pair_spline 2 /\ (forall j, (j < 2)%nat -> rqs_wf (variable pair_spline j)) /\ (1 < 2)%nat /\
  (exists c, Forall (fun t => nth 1 t 0 = c) [[1; 4]; [2; 4]; [-1; 4]]) /\ flow_standardised 2 [[1; 4]; [2; 4]; [-1; 4]] <> [].
Proof. split; [exact pair_variables|]. split; [exact pair_wf|]. split; [lia|]. split; [exists 4; repeat constructor|discriminate]. Qed.

(** The figure: the curve of the requested variable over the input interval, and its knots, which are on the curve, from the
    lower to the upper end; an index out of range is refused. *)
Theorem C112_plot : forall m V points idx, variables m V -> (forall j, (j < V)%nat -> rqs_wf (variable m j)) ->
  (item_named V idx -> exists F L line knots, let j := Z.to_nat (if (idx <? 0)%Z then idx + Z.of_nat V else idx) in
    computes (variable m j) false F L /\ plot_spline m points idx = Ok (line, knots) /\
    line = map (fun x => (x, Some (F x))) (linspace (rq_lo (sv_spline m)) (rq_hi (sv_spline m)) points) /\
    length knots = S (rq_bins (sv_spline m)) /\
    (forall x y, In (x, y) knots -> F x = y) /\
    nth_error knots 0 = Some (rq_lo (sv_spline m), rq_lo_out (sv_spline m)) /\
    nth_error knots (rq_bins (sv_spline m)) = Some (rq_hi (sv_spline m), rq_hi_out (sv_spline m)) /\
    (forall k a b, nth_error knots k = Some a -> nth_error knots (S k) = Some b -> fst a < fst b /\ snd a < snd b)) /\
  (~ item_named V idx -> plot_spline m points idx = Err IndexError).
Proof.
  intros m V points idx HV HW. split.
  - intro HI. pose proof (norm_index_named V idx HI) as E. set (j := Z.to_nat _) in *. assert (Hj : (j < V)%nat) by (unfold j, item_named in *; destruct (Z.ltb_spec idx 0); lia).
    pose proof (HW j Hj) as W. destruct (computes_exists (variable m j) false W) as (F & L & HC). exists F, L. eexists _, _. cbv zeta. split; [exact HC|]. split; [exact (plot_in_range m V HV HW points idx j F L E Hj HC)|]. split; [reflexivity|].
    change (rq_bins (sv_spline m)) with (rq_bins (variable m j)). change (rq_lo (sv_spline m)) with (rq_lo (variable m j)). change (rq_hi (sv_spline m)) with (rq_hi (variable m j)). change (rq_lo_out (sv_spline m)) with (rq_lo_out (variable m j)). change (rq_hi_out (sv_spline m)) with (rq_hi_out (variable m j)).
    split; [now rewrite map_length, seq_length|]. split.
    + intros x y H. apply in_map_iff in H as (k & H & Hk). apply in_seq in Hk. injection H as <- <-. destruct (computes_forward _ F L W HC (kx (variable m j) k)) as [-> _]. apply knot_value; [exact W|lia].
    + split; [cbn [seq map nth_error]; now rewrite kx_0, ky_0|]. split; [rewrite nth_error_map_seq by lia; cbn [Nat.add]; now rewrite kx_n, ky_n|].
      intros k a b Ha Hb. assert (Lk : (S k < S (rq_bins (variable m j)))%nat) by (apply nth_error_Some_lt in Hb || (assert (nth_error (map (fun k => (kx (variable m j) k, ky (variable m j) k)) (seq 0 (S (rq_bins (variable m j))))) (S k) <> None) as Q by congruence; apply nth_error_Some in Q; now rewrite map_length, seq_length in Q)).
      rewrite nth_error_map_seq in Ha, Hb by lia. cbn [Nat.add] in *. injection Ha as <-. injection Hb as <-. cbn [fst snd]. split; [apply kx_lt|apply ky_lt]; auto; lia.
  - intro HI. apply (plot_out_of_range m V HV HW). now apply norm_index_unnamed.
Qed.
Print Assumptions C112_plot.
Example C112_plot_nonvacuous : variables pair_spline 2 /\ (forall j, (j < 2)%nat -> rqs_wf (variable pair_spline j)) /\ item_named 2 (-1) /\ ~ item_named 2 2.
Proof. split; [exact pair_variables|]. split; [exact pair_wf|]. unfold item_named. lia. Qed.
