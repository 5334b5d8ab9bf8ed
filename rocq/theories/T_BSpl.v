(** Spline models and saved models: lossless saving (C64), spline models answer for the scores given (C84),
    monotone B-spline items (C86), and the splines of the surprisal model (C21). *)
From Coq Require Import String.
From Verif Require Import Base BaseFacts RBase RFacts M_Logit S_Logit M_Mono S_Mono M_Scale M_BSpl S_BSpl P_Logit P_Logit2 P_Logit4 P_Mono1 P_Mono8 P_Stat1
  P_BSpl1 P_BSpl2 P_BSpl3 P_BSpl4 P_BSpl5 T_Mono.
Import List.
Local Open Scope R_scope.

(** ** C64 *)
(** Saving one model and loading it into another of the same structure (same configuration, same names and shapes) makes
    the second equal to the first, whatever parameters, algorithm and scales it had: every later call answers the same. *)
Theorem C64_round_trip {C A S} : forall (o o' : object C A S), NoDup (map fst (ob_state o)) ->
  ob_config o' = ob_config o -> entries_agree (ob_state o) (ob_state o') ->
  load_model (Some (save_model o)) o' = (Ok tt, o) /\
  forall (X : Type) (call : object C A S -> X), call (snd (load_model (Some (save_model o)) o')) = call o.
Proof.
  intros o o' HN Hc HA. assert (E : load_model (Some (save_model o)) o' = (Ok tt, o)).
  { unfold load_model, save_model. cbn [cp_state cp_algorithm cp_scales]. rewrite (load_agreeing _ _ HN HA), Hc. destruct o; reflexivity. }
  split; [exact E|]. intros X call. now rewrite E.
Qed.
Print Assumptions C64_round_trip.
(** A file of another structure is refused, and the algorithm and the scales stay; a load is accepted only if every
    parameter of the model is in the file with its shape and the file has no others. *)
Theorem C64_refused {C A S} : forall (cp : checkpoint A S) given (o : object C A S), cp_state cp = Some given ->
  (fst (load_model (Some cp) o) = Ok tt <->
     (forall n v, In (n, v) (ob_state o) -> exists w, lookup n given = Some w /\ fst w = fst v) /\
     (forall n, In n (map fst given) -> In n (map fst (ob_state o)))) /\
  (fst (load_model (Some cp) o) <> Ok tt ->
     fst (load_model (Some cp) o) = Err RuntimeError /\ ob_config (snd (load_model (Some cp) o)) = ob_config o /\
     ob_algorithm (snd (load_model (Some cp) o)) = ob_algorithm o /\ ob_scale (snd (load_model (Some cp) o)) = ob_scale o).
Proof.
  intros cp given o Hg. unfold load_model. rewrite Hg. pose proof (load_accepts given (ob_state o)) as HA. pose proof (load_result given (ob_state o)) as HR.
  destruct (load_state_dict given (ob_state o)) as [r st]. cbn [fst] in HA, HR. destruct HR as [HR|HR]; rewrite HR in *; cbn [fst snd].
  - split; [tauto|]. intro H. congruence.
  - split; [|auto]. rewrite <- HA. split; discriminate.
Qed.
Print Assumptions C64_refused.
(** Files written without algorithm or scales leave the model's own. *)
Theorem C64_old_files {C A S} : forall given (o : object C A S), NoDup (map fst given) -> entries_agree given (ob_state o) ->
  load_model (Some (Checkpoint (Some given) None None)) o = (Ok tt, Obj (ob_config o) given (ob_algorithm o) (ob_scale o)).
Proof. intros given o HN HA. unfold load_model. cbn [cp_state cp_algorithm cp_scales]. now rewrite (load_agreeing _ _ HN HA). Qed.
Print Assumptions C64_old_files.
(** A path that cannot be read and a file without parameters raise, and leave the model as it was. *)
Theorem C64_unusable_files {C A S} : forall (file : option (checkpoint A S)) (o : object C A S),
  (file = None \/ exists cp, file = Some cp /\ cp_state cp = None) ->
  (exists e, fst (load_model file o) = Err e) /\ snd (load_model file o) = o.
Proof. intros file o [->|(cp & -> & H)]; unfold load_model; [|rewrite H]; split; try reflexivity; eexists; reflexivity. Qed.
Print Assumptions C64_unusable_files.
(** Finding: a refused file has still replaced every parameter whose name and shape it shares with the model. *)
Theorem C64_refused_overwrites_refuted {C A S} : forall (cp : checkpoint A S) given (o : object C A S), cp_state cp = Some given ->
  (forall q n v, nth_error (ob_state o) q = Some (n, v) ->
     nth_error (ob_state (snd (load_model (Some cp) o))) q =
       Some (n, match lookup n given with Some w => if shape_eqb (fst w) (fst v) then w else v | None => v end)) /\
  exists (o1 : object unit unit unit) cp1, fst (load_model (Some cp1) o1) = Err RuntimeError /\ snd (load_model (Some cp1) o1) <> o1.
Proof.
  intros cp given o Hg. split.
  - intros q n v Hq. unfold load_model. rewrite Hg. pose proof (load_entries given (ob_state o) q n v Hq) as H.
    destruct (load_state_dict given (ob_state o)) as [[u|e] st]; exact H.
  - exists (Obj tt [("bias"%string, ([1%nat], [0])); ("weight"%string, ([1%nat], [1]))] tt tt),
           (Checkpoint (Some [("bias"%string, ([1%nat], [5])); ("weight"%string, ([2%nat], [1; 1]))]) (Some tt) (Some tt)).
    split; [reflexivity|]. cbn. intro H. injection H. lra.
Qed.
Print Assumptions C64_refused_overwrites_refuted.
Example C64_nonvacuous : let o := Obj [2%nat] [("bias"%string, ([2%nat], [0; 3])); ("weight"%string, ([1%nat], [1]))] 7%nat [true] in
  let o' := Obj [2%nat] [("bias"%string, ([2%nat], [0; 0])); ("weight"%string, ([1%nat], [0]))] 0%nat [] in
  load_model (Some (save_model o)) o' = (Ok tt, o).
Proof.
  intros o o'. apply C64_round_trip; [|reflexivity|reflexivity]. cbn. repeat constructor; cbn; intuition congruence.
Qed.

(** ** C84 *)
(** After any history of calls that all completed (marginal fits, other fits, loads), a new model holds no basis, and its
    output has a row for each row of scores, the one given by the formula for these scores and the current parameters. *)
Theorem C84_completed : forall cats lv knots degree separate ops theta,
  (0 < lv)%nat -> Forall (fun K => (1 <= K)%nat) cats -> separate = "items"%string \/ lv = 1%nat ->
  let m0 := bs_init cats lv knots degree separate in
  let m := snd (spline_run ops m0) in
  Forall (fun r => r = Ok tt) (fst (spline_run ops m0)) ->
  length (bs_coef m) = length (bs_coef m0) -> length (bs_bias m) = length (bs_bias m0) ->
  theta <> [] -> Forall (fun t => length t = lv) theta ->
  exists out, bs_forward m theta = Ok out /\ length out = length theta /\
    forall r t i k K, nth_error theta r = Some t -> nth_error cats i = Some K -> (k < list_max cats)%nat ->
      at3 out r i k = Some (if (k <? K)%nat then Fin (bspline_logit m t i k) else NInf).
Proof.
  intros cats lv knots degree separate ops theta Hlv HF Hs m0 m HR Hc Hb Hne HT.
  pose proof (spline_run_completed ops m0 eq_refl HR) as Hn. pose proof (spline_run_architecture ops m0) as (A1 & A2 & A3 & A4 & A5). fold m in Hn, A1, A2, A3, A4, A5.
  destruct (bs_init_ok cats lv knots degree separate m Hlv HF Hs) as (Hok & E1 & E2 & E3 & E4 & E5).
  { unfold same_bspl. fold m0. rewrite Hn. repeat (split; [assumption|]). reflexivity. }
  destruct (bs_forward_ok m theta Hok Hne) as (out & Eo & Hl & _ & _ & Ha); [now rewrite E2|].
  exists out. split; [exact Eo|]. split; [exact Hl|]. intros r t i k K Hr Hi Hk. apply Ha; auto; unfold bs_max; now rewrite E1.
Qed.
Print Assumptions C84_completed.
(** In particular rows of equal scores get equal rows of output, in whatever batches they come. *)
Theorem C84_rows : forall m theta theta' out out' r r' t, bs_ok m -> Forall (fun t => length t = bs_lv m) theta -> Forall (fun t => length t = bs_lv m) theta' ->
  bs_forward m theta = Ok out -> bs_forward m theta' = Ok out' -> nth_error theta r = Some t -> nth_error theta' r' = Some t ->
  forall i k, (i < length (bs_cats m))%nat -> (k < list_max (bs_cats m))%nat -> at3 out r i k = at3 out' r' i k /\ at3 out r i k <> None.
Proof.
  intros m theta theta' out out' r r' t Hok HF HF' E E' Hr Hr' i k Hi Hk.
  destruct (bs_forward_ok m theta Hok) as (o & Eo & _ & _ & _ & Ha); [intro X; subst; destruct r; discriminate|exact HF|].
  destruct (bs_forward_ok m theta' Hok) as (o' & Eo' & _ & _ & _ & Ha'); [intro X; subst; destruct r'; discriminate|exact HF'|].
  assert (o = out) by congruence. assert (o' = out') by congruence. subst. destruct (nth_error (bs_cats m) i) as [K|] eqn:EK; [|apply nth_error_None in EK; lia].
  rewrite (Ha r t i k K Hr EK Hk), (Ha' r' t i k K Hr' EK Hk). split; [reflexivity|discriminate].
Qed.
Print Assumptions C84_rows.
(** The surprisal model never holds a basis, whether or not its fits complete. *)
Theorem C84_surprisal : forall trains m, ss_basis m = None ->
  let m' := fold_left (fun m train => snd (mml_surprisal train m)) trains m in
  ss_basis m' = None /\ forall theta, ss_forward m' theta = rmap (ss_evaluate m') (spline_basis (ss_lv m) (ss_degree m) (ss_knots m) theta).
Proof.
  intros trains. induction trains as [|train trains IH]; intros m Hm; cbn [fold_left].
  - split; [exact Hm|]. intro theta. unfold ss_forward. now rewrite Hm.
  - specialize (IH (snd (mml_surprisal train m))). unfold mml_surprisal in *. destruct (train m) as [coef failed]. cbn [snd ss_basis ss_lv ss_degree ss_knots] in *. now apply IH.
Qed.
Print Assumptions C84_surprisal.
(** Finding: a marginal fit that does not complete (an exception or an interrupt during the epochs) leaves the basis of its
    integration points in the model.  From then on - also after loading a saved model or fitting otherwise - the output is
    the same for all scores and has a row per point and training respondent. *)
Theorem C84_failed_fit_refuted : forall m n points train e ops, (0 < bs_lv m)%nat -> bs_by_item m = true \/ bs_lv m = 1%nat ->
  (0 < n)%nat -> points <> [] -> Forall (fun t => length t = bs_lv m) points ->
  fst (mml_spline n points train m) = Err e -> Forall (fun o => match o with SetParameters _ => True | MmlFit _ _ _ => False end) ops ->
  let m' := snd (spline_run (MmlFit n points train :: ops) m) in
  exists out, length out = (length points * n)%nat /\ forall theta, bs_forward m' theta = Ok out.
Proof.
  intros m n points train e ops Hlv Hs Hn Hp HF He Hops m'. destruct (mml_spline_failed n points train m e Hlv Hn Hp HF He) as (basis & Eb & Hl & Hb).
  assert (Hm' : bs_basis m' = Some basis /\ same_architecture m m').
  { split; [|apply spline_run_architecture]. unfold m'. cbn [spline_run spline_step]. destruct (mml_spline n points train m) as [r m1]. cbn [snd] in Hb. pose proof (spline_run_held ops basis m1 Hb Hops) as H.
    destruct (spline_run ops m1). exact H. }
  destruct Hm' as [Hm' (_ & A2 & _ & _ & A5)].
  eexists. split; [|intro theta; rewrite (held_evaluate m' basis theta Hm'); unfold bs_evaluate; rewrite A2, A5;
    replace (negb (bs_by_item m) && negb (bs_lv m =? 1)%nat) with false by (destruct Hs as [E3|E3]; rewrite E3; [|rewrite Nat.eqb_refl, andb_false_r]; reflexivity); reflexivity].
  now rewrite map_length, seq_length.
Qed.
Print Assumptions C84_failed_fit_refuted.
(** A later marginal fit that completes sets this right. *)
Theorem C84_recovers : forall ops m n points train, fst (mml_spline n points train (snd (spline_run ops m))) = Ok tt ->
  bs_basis (snd (spline_run (ops ++ [MmlFit n points train]) m)) = None.
Proof.
  intros ops m n points train H. rewrite spline_run_app. cbn [snd spline_run spline_step]. pose proof (mml_spline_done n points train _ H) as G.
  destruct (mml_spline n points train _) as [r m1]. exact G.
Qed.
Print Assumptions C84_recovers.
(** The current parameters are those last loaded, or those the last fit ended with; a fit starts from the current ones. *)
Theorem C84_parameters : forall ops m,
  (forall p, let m' := snd (spline_run (ops ++ [SetParameters p]) m) in bs_coef m' = fst p /\ bs_bias m' = snd p) /\
  (forall n points train, let m0 := snd (spline_run ops m) in let m' := snd (spline_run (ops ++ [MmlFit n points train]) m) in
     (bs_coef m' = bs_coef m0 /\ bs_bias m' = bs_bias m0) \/
     exists m1, same_architecture m0 m1 /\ bs_coef m1 = bs_coef m0 /\ bs_bias m1 = bs_bias m0 /\ bs_coef m' = fst (fst (train m1)) /\ bs_bias m' = snd (fst (train m1))).
Proof.
  intros ops m. split.
  - intro p. cbv zeta. rewrite spline_run_app. split; reflexivity.
  - intros n points train. cbv zeta. rewrite spline_run_app. cbn [snd spline_run spline_step]. set (m0 := snd (spline_run ops m)). unfold mml_spline, precompute.
    destruct (spline_basis _ _ _ _) as [b|e]; [|left; split; reflexivity]. cbn [rmap]. right. exists (with_basis (Some b) m0). repeat (split; [try reflexivity|]).
    + unfold same_architecture. cbn. repeat split; reflexivity.
    + destruct (train _) as [p [e|]]; reflexivity.
    + destruct (train _) as [p [e|]]; reflexivity.
Qed.
Print Assumptions C84_parameters.
(** The nested model with spline distractors: after a failed marginal fit every batch of more than one respondent, other
    than one of exactly as many rows as points times training respondents, is refused with RuntimeError. *)
Theorem C84_nested_failed_fit_refuted : forall m n points train e correct theta p, (0 < ns_lv m)%nat ->
  (0 < n)%nat -> points <> [] -> Forall (fun t => length t = ns_lv m) points ->
  fst (mml_nested n points train m) = Err e -> correct theta = Ok p ->
  length theta <> 1%nat -> (length points * n <> 1)%nat -> length theta <> (length points * n)%nat ->
  ns_forward (snd (mml_nested n points train m)) correct theta = Err RuntimeError.
Proof.
  intros m n points train e correct theta p Hlv Hn Hp HF He Hc H1 H2 H3. assert (Hne : repeat_interleave n points <> []).
  { intro E. apply (f_equal (@length _)) in E. rewrite repeat_interleave_length in E. destruct points; [congruence|]. cbn [length] in E. nia. }
  destruct (spline_basis_ok (ns_lv m) (ns_degree m) (ns_knots m) _ Hlv Hne (repeat_interleave_forall _ n points HF)) as (basis & Eb & Hl & _).
  unfold mml_nested in *. rewrite Eb in *. destruct (train _) as [coef [e'|]]; [|discriminate]. unfold ns_forward. cbn [snd ns_basis ns_cats ns_key]. rewrite Hc. cbn [bind].
  unfold ns_evaluate. rewrite Hl, repeat_interleave_length. destruct (Nat.eqb_spec (length theta) (length points * n)); [contradiction|].
  destruct (Nat.eqb_spec (length points * n) 1); [contradiction|]. destruct (Nat.eqb_spec (length theta) 1); [contradiction|]. reflexivity.
Qed.
Print Assumptions C84_nested_failed_fit_refuted.
(** The nested model otherwise: in the output for given scores each wrong answer has the probability of a wrong answer
    times a softmax of the item's splines at these scores. *)
Theorem C84_nested_completed : forall m n points train correct theta p, (0 < ns_lv m)%nat -> theta <> [] -> Forall (fun t => length t = ns_lv m) theta ->
  ns_basis m = None \/ fst (mml_nested n points train m) = Ok tt ->
  let m' := if ns_basis m then snd (mml_nested n points train m) else m in correct theta = Ok p ->
  exists cond, ns_forward m' correct theta = Ok (nested_probabilities (list_max (ns_cats m)) (ns_key m) p cond) /\ length cond = length theta /\
    forall r t i K k, nth_error theta r = Some t -> nth_error (ns_cats m) i = Some K -> (2 <= K)%nat -> (k < list_max (ns_cats m) - 1)%nat ->
      exists z, at3 cond r i k = Some (Some (if (k <? K - 1)%nat then category_probability (K - 1) z k else 0)) /\
        forall j, (j < K - 1)%nat -> z j = sumn (ns_lv m) (fun d => if ns_rel m i d
          then sumn (n_bases (ns_degree m) (ns_knots m)) (fun b => bbasis (fun q => nth q (ns_knots m) 0) (ns_degree m) b (logistic (nth d t 0)) * ns_coef m' i d b j)
          else 0).
Proof.
  intros m n points train correct theta p Hlv Hne HF Hb m' Hp.
  assert (A : ns_basis m' = None /\ ns_cats m' = ns_cats m /\ ns_key m' = ns_key m /\ ns_lv m' = ns_lv m /\ ns_rel m' = ns_rel m /\ ns_degree m' = ns_degree m /\ ns_knots m' = ns_knots m).
  { unfold m'. destruct (ns_basis m) as [b0|] eqn:E0; [|rewrite E0; repeat split; reflexivity]. destruct Hb as [Hb|Hb]; [discriminate|].
    unfold mml_nested in *. destruct (spline_basis _ _ _ _); [|discriminate]. destruct (train _) as [coef [e|]]; [discriminate|]. repeat split; reflexivity. }
  destruct A as (A1 & A2 & A3 & A4 & A5 & A6 & A7).
  destruct (spline_basis_ok (ns_lv m) (ns_degree m) (ns_knots m) theta Hlv Hne HF) as (basis & Eb & Hl & Hv).
  unfold ns_forward. rewrite Hp, A1, A4, A6, A7, Eb, A2, A3. cbn [bind]. unfold ns_evaluate. rewrite Hl, Nat.eqb_refl. cbn [orb rmap].
  eexists. split; [reflexivity|]. split; [now rewrite map_length, seq_length|].
  intros r t i K k Hr Hi HK Hk. assert (Hrl : (r < length theta)%nat) by (apply nth_error_Some; congruence).
  assert (HKM : (K <= list_max (ns_cats m))%nat) by (apply list_max_bound; eapply nth_error_In; eauto).
  set (r0 := if (length theta =? 1)%nat then 0%nat else r). assert (Er : r0 = r) by (unfold r0; destruct (Nat.eqb_spec (length theta) 1); [lia|reflexivity]).
  destruct (ns_conditional_at m' (fun d b => nth b (nth r0 (nth d basis []) []) 0) i K k) as (z & Hz & Hzz); [rewrite A2; lia|rewrite A2; lia|].
  exists z. split.
  - unfold at3, at2. rewrite nth_error_map_seq by auto. cbn [Nat.add]. rewrite A2, nth_error_mapi, Hi. exact Hz.
  - intros j Hj. rewrite Hzz, A4, A5, A6, A7, Er. apply sumn_ext. intros d Hd. destruct (ns_rel m i d) eqn:Erel.
    + apply sumn_ext. intros b Hb'. rewrite (Hv r t d b Hr Hd Hb'). destruct (Nat.ltb_spec j (K - 1)); [reflexivity|lia].
    + apply sumn_zero. intros b _. cbn [andb]. ring.
Qed.
Print Assumptions C84_nested_completed.
(** The coefficients of a nested or surprisal spline model after a fit are those the training ended with, having started
    from the coefficients before the fit in a model of the same architecture; a fit that never starts changes nothing. *)
Theorem C84_other_parameters :
  (forall m n points train, let m' := snd (mml_nested n points train m) in
     (fst (mml_nested n points train m) <> Ok tt /\ m' = m) \/
     exists m1, ns_cats m1 = ns_cats m /\ ns_key m1 = ns_key m /\ ns_lv m1 = ns_lv m /\ ns_rel m1 = ns_rel m /\ ns_degree m1 = ns_degree m /\ ns_knots m1 = ns_knots m /\
       ns_coef m1 = ns_coef m /\ ns_coef m' = fst (train m1) /\ (fst (mml_nested n points train m) = Ok tt <-> snd (train m1) = None)) /\
  (forall m train, let m' := snd (mml_surprisal train m) in
     ss_coef m' = fst (train m) /\ ss_cats m' = ss_cats m /\ ss_lv m' = ss_lv m /\ ss_rel m' = ss_rel m /\ ss_degree m' = ss_degree m /\ ss_knots m' = ss_knots m /\
     (fst (mml_surprisal train m) = Ok tt <-> snd (train m) = None)).
Proof.
  split.
  - intros m n points train. cbv zeta. unfold mml_nested. destruct (spline_basis _ _ _ _) as [b|e]; [|left; split; [discriminate|reflexivity]].
    right. eexists (NSpl (ns_cats m) (ns_key m) (ns_lv m) (ns_rel m) (ns_degree m) (ns_knots m) (ns_coef m) (Some b)). repeat (split; [reflexivity|]).
    destruct (train _) as [coef [e|]]; cbn; split; try reflexivity; split; intro H; solve [reflexivity|discriminate].
  - intros m train. cbv zeta. unfold mml_surprisal. destruct (train m) as [coef [e|]]; cbn; repeat (split; [reflexivity|]); split; intro H; solve [reflexivity|discriminate].
Qed.
Print Assumptions C84_other_parameters.
Example C84_nonvacuous : let m0 := bs_init [2%nat] 1 None 3 "items" in
  let fit := MmlFit 2 [[0]; [1]] (fun m => ((bs_coef m, bs_bias m), None)) in
  let stopped := MmlFit 2 [[0]; [1]] (fun m => ((bs_coef m, bs_bias m), Some OtherError)) in
  (exists out, bs_forward (snd (spline_run [fit] m0)) [[0]; [2]; [1]] = Ok out /\ length out = 3%nat) /\
  (exists out, length out = 4%nat /\ forall theta, bs_forward (snd (spline_run [stopped] m0)) theta = Ok out) /\
  bs_basis (snd (spline_run [stopped; fit] m0)) = None.
Proof.
  intros m0 fit stopped.
  assert (P : forall m, bs_lv m = 1%nat -> exists b, precompute (repeat_interleave 2 [[0]; [1]]) m = Ok (with_basis (Some b) m)).
  { intros m Hm. destruct (spline_basis_ok (bs_lv m) (bs_degree m) (bs_knots m) (repeat_interleave 2 [[0]; [1]])) as (b & Eb & _); [lia|discriminate|rewrite Hm; repeat constructor|].
    exists b. unfold precompute. rewrite Eb. reflexivity. }
  assert (F : forall m, bs_lv m = 1%nat -> mml_spline 2 [[0]; [1]] (fun m => ((bs_coef m, bs_bias m), None)) m = (Ok tt, with_basis None m)).
  { intros m Hm. destruct (P m Hm) as (b & Eb). unfold mml_spline. rewrite Eb. reflexivity. }
  assert (G : forall m, bs_lv m = 1%nat -> fst (mml_spline 2 [[0]; [1]] (fun m => ((bs_coef m, bs_bias m), Some OtherError)) m) = Err OtherError).
  { intros m Hm. destruct (P m Hm) as (b & Eb). unfold mml_spline. rewrite Eb. reflexivity. }
  split; [|split].
  - assert (R : spline_run [fit] m0 = ([Ok tt], with_basis None m0)) by (unfold fit; cbn [spline_run spline_step]; rewrite (F m0 eq_refl); reflexivity).
    destruct (C84_completed [2%nat] 1 None 3 "items" [fit] [[0]; [2]; [1]]) as (out & Eo & Hl & _); try fold m0; try rewrite R; try reflexivity; try lia; try discriminate; auto; try (repeat constructor; fail).
    exists out. split; [exact Eo|exact Hl].
  - destruct (C84_failed_fit_refuted m0 2 [[0]; [1]] (fun m => ((bs_coef m, bs_bias m), Some OtherError)) OtherError []) as (out & Hl & Ho); try reflexivity; auto; try discriminate; try (cbn; lia); try (repeat constructor; fail).
    exists out. split; [exact Hl|exact Ho].
  - apply (C84_recovers [stopped] m0 2 [[0]; [1]] (fun m => ((bs_coef m, bs_bias m), None))).
    rewrite F; [reflexivity|]. pose proof (spline_run_architecture [stopped] m0) as (_ & E & _). now rewrite E.
Qed.

(** ** C86 *)
(** Both ways of sharing splines: the logits, for every parameter, batch and number of latent variables allowed. *)
Theorem C86_logits : forall cats lv knots degree separate m theta, (0 < lv)%nat -> Forall (fun K => (1 <= K)%nat) cats ->
  separate = "items"%string \/ lv = 1%nat -> same_bspl (bs_init cats lv knots degree separate) m ->
  theta <> [] -> Forall (fun t => length t = lv) theta ->
  exists out, bs_forward m theta = Ok out /\ length out = length theta /\
    forall r t i k K, nth_error theta r = Some t -> nth_error cats i = Some K -> (k < list_max cats)%nat ->
      at3 out r i k = Some (if (k <? K)%nat then Fin (bspline_logit m t i k) else NInf) /\ bspline_logit m t i 0 = 0.
Proof.
  intros cats lv knots degree separate m theta Hlv HF Hs Hsame Hne HT.
  destruct (bs_init_ok cats lv knots degree separate m Hlv HF Hs Hsame) as (Hok & E1 & E2 & E3 & E4 & E5).
  destruct (bs_forward_ok m theta Hok Hne) as (out & Eo & Hl & _ & _ & Ha); [now rewrite E2|].
  exists out. split; [exact Eo|]. split; [exact Hl|]. intros r t i k K Hr Hi Hk. split; [apply Ha; auto; unfold bs_max; now rewrite E1|].
  unfold bspline_logit, intercept. cbn [Nat.leb andb sumn INR]. destruct (bs_by_item m); ring.
Qed.
Print Assumptions C86_logits.
Theorem C86_distribution : forall cats lv knots degree separate m theta, (0 < lv)%nat -> Forall (fun K => (1 <= K)%nat) cats ->
  separate = "items"%string \/ lv = 1%nat -> same_bspl (bs_init cats lv knots degree separate) m ->
  theta <> [] -> Forall (fun t => length t = lv) theta ->
  exists probs, bs_probabilities m theta = Ok probs /\ length probs = length theta /\
    forall r i K, (r < length theta)%nat -> nth_error cats i = Some K ->
      exists p, (forall k, (k < list_max cats)%nat -> at3 probs r i k = Some (Some (p k))) /\ valid_distribution K (list_max cats) p.
Proof.
  intros cats lv knots degree separate m theta Hlv HF Hs Hsame Hne HT.
  destruct (bs_init_ok cats lv knots degree separate m Hlv HF Hs Hsame) as (Hok & E1 & E2 & E3 & E4 & E5).
  destruct (bs_probabilities_ok m theta Hok Hne) as (probs & Ep & Hl & Ha); [now rewrite E2|].
  exists probs. split; [exact Ep|]. split; [exact Hl|]. intros r i K Hr Hi.
  destruct (nth_error theta r) as [t|] eqn:Et; [|apply nth_error_None in Et; lia].
  assert (HK : (1 <= K <= list_max cats)%nat) by (rewrite Forall_forall in HF; split; [apply HF; eapply nth_error_In; eauto|apply list_max_bound; eapply nth_error_In; eauto]).
  exists (fun k => if (k <? K)%nat then category_probability K (bspline_logit m t i) k else 0). split.
  - intros k Hk. apply (Ha r t i k K); auto; [now rewrite E1|unfold bs_max; now rewrite E1].
  - apply valid_category_distribution. exact HK.
Qed.
Print Assumptions C86_distribution.
(** Raising one latent variable never lowers the probability of answering above a category nor the expected score, and
    raises both for splines of positive degree. *)
Theorem C86_monotone : forall cats lv knots degree separate m theta r r' t t' d i K, (0 < lv)%nat -> Forall (fun K => (1 <= K)%nat) cats ->
  separate = "items"%string \/ lv = 1%nat -> same_bspl (bs_init cats lv knots degree separate) m ->
  in_order (match knots with Some l => l | None => default_knots end) ->
  Forall (fun t => length t = lv) theta -> nth_error theta r = Some t -> nth_error theta r' = Some t' -> (d < lv)%nat -> increases_in d t t' ->
  nth_error cats i = Some K ->
  exists probs p p' es e e', bs_probabilities m theta = Ok probs /\
    (forall k, (k < list_max cats)%nat -> at3 probs r i k = Some (Some (p k)) /\ at3 probs r' i k = Some (Some (p' k))) /\
    expected_item_scores (length cats) (list_max cats) None probs = Ok es /\ at2 es r i = Some (Some e) /\ at2 es r' i = Some (Some e') /\
    (forall c, above (list_max cats) c p <= above (list_max cats) c p') /\ e <= e' /\
    ((0 < degree)%nat -> (forall c, (S c < K)%nat -> above (list_max cats) c p < above (list_max cats) c p') /\ ((2 <= K)%nat -> e < e')).
Proof.
  intros cats lv knots degree separate m theta r r' t t' d i K Hlv HF Hs Hsame Ho HT Hr Hr' Hd Hinc Hi.
  destruct (bs_init_ok cats lv knots degree separate m Hlv HF Hs Hsame) as (Hok & E1 & E2 & E3 & E4 & E5).
  destruct (bs_probabilities_ok m theta Hok) as (probs & Ep & Hl & Ha); [intro X; subst; destruct r; discriminate|now rewrite E2|].
  assert (HK : (1 <= K <= list_max cats)%nat) by (rewrite Forall_forall in HF; split; [apply HF; eapply nth_error_In; eauto|apply list_max_bound; eapply nth_error_In; eauto]).
  assert (Hil : (i < length cats)%nat) by (apply nth_error_Some; congruence).
  set (M := list_max cats) in *. set (q := fun (z : nat -> R) k => if (k <? K)%nat then category_probability K z k else 0).
  set (z := bspline_logit m t i). set (z' := bspline_logit m t' i).
  assert (Hq : forall k, (k < M)%nat -> at3 probs r i k = Some (Some (q z k))) by (intros k Hk; apply (Ha r t i k K); auto; [now rewrite E1|unfold bs_max; now rewrite E1]).
  assert (Hq' : forall k, (k < M)%nat -> at3 probs r' i k = Some (Some (q z' k))) by (intros k Hk; apply (Ha r' t' i k K); auto; [now rewrite E1|unfold bs_max; now rewrite E1]).
  destruct (expected_item_none (length cats) M probs r i (q z) Hil Hq ltac:(lia)) as (es & Ees & He).
  destruct (expected_item_none (length cats) M probs r' i (q z') Hil Hq' ltac:(lia)) as (es' & Ees' & He').
  assert (es' = es) by congruence. subst es'.
  assert (Hstep : forall k, z (S k) - z k <= z' (S k) - z' k /\ ((0 < degree)%nat -> z (S k) - z k < z' (S k) - z' k)).
  { intro k. pose proof (logit_step_monotone m knots t t' d i k Hok) as G. rewrite E2, E3, E4 in G. now apply G. }
  assert (Hsum : forall y, sumn M (fun k => INR k * q y k) = sumn K (fun k => INR k * category_probability K y k)).
  { intro y. rewrite (sumn_truncate K M); [|lia|intros k Hk; unfold q; destruct (Nat.ltb_spec k K); [lia|ring]].
    apply sumn_ext. intros k Hk. unfold q. destruct (Nat.ltb_spec k K); [reflexivity|lia]. }
  exists probs, (q z), (q z'), es, (sumn M (fun k => INR k * q z k)), (sumn M (fun k => INR k * q z' k)).
  split; [exact Ep|]. split; [intros k Hk; split; auto|]. split; [exact Ees|]. split; [exact He|]. split; [exact He'|].
  split; [|split; [|split]].
  - intro c. unfold q. rewrite !above_truncate by lia. apply above_le; [lia|]. intros k Hk. apply Hstep.
  - rewrite !Hsum. apply average_monotone; [lia|]. intros k Hk. apply Hstep.
  - intros c Hc. unfold q. rewrite !above_truncate by lia. apply above_lt; [exact Hc|]. intros k Hk. now apply Hstep.
  - intro H2. rewrite !Hsum. apply average_strict; [exact H2|]. intros k Hk. now apply Hstep.
Qed.
Print Assumptions C86_monotone.
(** The reported directions are positive for every item and latent variable. *)
Theorem C86_directions : forall cats lv knots degree separate m i d, same_bspl (bs_init cats lv knots degree separate) m ->
  (i < length cats)%nat -> (d < lv)%nat -> at2 (bs_directions m) i d = Some 1%Z /\ length (bs_directions m) = length cats.
Proof.
  intros cats lv knots degree separate m i d (E1 & E2 & _) Hi Hd. cbn [bs_init bs_cats bs_lv] in *. unfold bs_directions, at2, bs_items. rewrite E1, E2.
  rewrite repeat_length. split; [|reflexivity]. rewrite nth_error_repeat_lt by auto. now apply nth_error_repeat_lt.
Qed.
Print Assumptions C86_directions.
(** Finding: with separate splines per category and several latent variables no forward pass works. *)
Theorem C86_several_latent_variables_refuted : forall cats lv knots degree separate m theta, separate <> "items"%string -> (1 < lv)%nat ->
  same_bspl (bs_init cats lv knots degree separate) m -> theta <> [] -> Forall (fun t => length t = lv) theta -> bs_forward m theta = Err IndexError.
Proof.
  intros cats lv knots degree separate m theta Hs Hlv (E1 & E2 & E3 & E4 & E5 & _ & _ & E8) Hne HT. cbn [bs_init bs_lv bs_by_item bs_basis] in *.
  destruct (spline_basis_ok lv (bs_degree m) (bs_knots m) theta) as (basis & Eb & _); [lia|exact Hne|exact HT|].
  unfold bs_forward. rewrite E8, E2, Eb. cbn [bind]. unfold bs_evaluate. rewrite E5, E2. apply String.eqb_neq in Hs. rewrite Hs.
  destruct (Nat.eqb_spec lv 1); [lia|reflexivity].
Qed.
Print Assumptions C86_several_latent_variables_refuted.
(** Finding: knots out of order are accepted and then the item need not be monotone. *)
Lemma unordered_basis x : logistic (-1) <= x < 1 -> forall b,
  bbasis (fun j => nth j (knot_vector 0 (Some [1; -1])) 0) 0 b x =
  match b with 0%nat => if Rlt_dec x (logistic 1) then 1 else 0 | 2%nat => 1 | _ => 0 end.
Proof.
  intros [H1 H2] b. pose proof (logistic_bounds (-1)) as B1. pose proof (logistic_bounds 1) as B2. pose proof (logistic_incr (-1) 1 ltac:(lra)) as B3.
  unfold knot_vector. cbn [repeat Nat.add map app]. destruct b as [|[|[|[|b]]]]; cbn [bbasis nth].
  - destruct (Rle_dec 0 x); [|lra]. reflexivity.
  - destruct (Rle_dec (logistic 1) x); [|reflexivity]. destruct (Rlt_dec x (logistic (-1))); [lra|reflexivity].
  - destruct (Rle_dec (logistic (-1)) x); [|lra]. destruct (Rlt_dec x 1); [reflexivity|lra].
  - destruct (Rle_dec 1 x); [lra|reflexivity].
  - destruct (Rle_dec (match b with 0%nat => 0 | S _ => 0 end) x) as [A|A]; [|reflexivity]. destruct (Rlt_dec x _) as [A2|A2]; [|reflexivity].
    exfalso. destruct b as [|[|b]]; lra.
Qed.
Theorem C86_unordered_knots_refuted : let m := bs_init [2%nat] 1 (Some [1; -1]) 0 "items" in
  exists es e e', bind (bs_probabilities m [[0]; [2]]) (expected_item_scores 1 2 None) = Ok es /\
    at2 es 0 0 = Some (Some e) /\ at2 es 1 0 = Some (Some e') /\ e' < e.
Proof.
  intro m.
  assert (Hsame : same_bspl (bs_init [2%nat] 1 (Some [1; -1]) 0 "items") m) by (unfold same_bspl; repeat split; reflexivity).
  assert (HT : Forall (fun t : list R => length t = 1%nat) [[0]; [2]]) by repeat constructor.
  destruct (bs_init_ok [2%nat] 1 (Some [1; -1]) 0 "items" m ltac:(lia) ltac:(repeat constructor) ltac:(auto) Hsame) as (Hok & E1 & E2 & E3 & E4 & E5).
  destruct (bs_probabilities_ok m [[0]; [2]] Hok ltac:(discriminate) HT) as (probs & Ep & Hl & Ha).
  set (q := fun t k => if (k <? 2)%nat then category_probability 2 (bspline_logit m t 0) k else 0).
  assert (Hq0 : forall k, (k < 2)%nat -> at3 probs 0 0 k = Some (Some (q [0] k))) by (intros k Hk; now apply (Ha 0%nat [0] 0%nat k 2%nat)).
  assert (Hq1 : forall k, (k < 2)%nat -> at3 probs 1 0 k = Some (Some (q [2] k))) by (intros k Hk; now apply (Ha 1%nat [2] 0%nat k 2%nat)).
  destruct (expected_item_none 1 2 probs 0 0 (q [0]) ltac:(lia) Hq0 ltac:(lia)) as (es & Ees & He).
  destruct (expected_item_none 1 2 probs 1 0 (q [2]) ltac:(lia) Hq1 ltac:(lia)) as (es' & Ees' & He').
  assert (es' = es) by congruence. subst es'.
  exists es, (sumn 2 (fun k => INR k * q [0] k)), (sumn 2 (fun k => INR k * q [2] k)). rewrite Ep. cbn [bind]. split; [exact Ees|]. split; [exact He|]. split; [exact He'|].
  assert (Es : forall t, sumn 2 (fun k => INR k * q t k) = sumn 2 (fun k => INR k * category_probability 2 (bspline_logit m t 0) k)).
  { intro t. apply sumn_ext. intros k Hk. unfold q. destruct (Nat.ltb_spec k 2); [reflexivity|lia]. }
  rewrite !Es. apply average_strict; [lia|]. intros k Hk. assert (k = 0)%nat by lia. subst k.
  assert (V : forall x, logistic (-1) <= logistic x -> bspline_logit m [x] 0 1 - bspline_logit m [x] 0 0 =
     (if Rlt_dec (logistic x) (logistic 1) then softplus (-5/2) else 0) + (softplus (-5/2) + softplus (-5/2) + softplus (-5/2))).
  { intros x Hx. rewrite logit_step by auto. unfold intercept. cbn [bs_by_item bs_init m String.eqb bs_lv]. cbn [Nat.leb andb bs_cats bs_init nth Nat.ltb bs_bias].
    unfold m at 1 2 3. cbn [bs_by_item bs_init bs_lv bs_degree bs_knots String.eqb Ascii.eqb Bool.eqb].
    rewrite (sumn_single 1 0) by (lia || (intros; lia)). unfold spline_value. change (n_bases 0 (knot_vector 0 (Some [1; -1]))) with 3%nat.
    cbn [nth]. cbn [sumn]. rewrite !unordered_basis by (split; [exact Hx|apply logistic_bounds]).
    unfold shared_increment, bs_n. cbn [m bs_init bs_knots bs_degree bs_cats bs_coef length String.eqb Ascii.eqb Bool.eqb].
    change (n_bases 0 (knot_vector 0 (Some [1; -1]))) with 3%nat. cbn [Nat.mul Nat.add nth repeat ctrue length filter free_bias].
    change (list_sum _) with 0%nat.
    destruct (Rlt_dec (logistic x) (logistic 1)); cbn; ring. }
  rewrite !V by (apply logistic_le_iff; lra). pose proof (softplus_pos (-5/2)).
  destruct (Rlt_dec (logistic 2) (logistic 1)) as [A|A]; [pose proof (logistic_incr 1 2 ltac:(lra)); lra|].
  destruct (Rlt_dec (logistic 0) (logistic 1)) as [B|B]; [lra|]. exfalso. apply B. apply logistic_incr. lra.
Qed.
Print Assumptions C86_unordered_knots_refuted.
Example C86_nonvacuous : let m := bs_init [3; 2]%nat 2 None 3 "items" in
  exists probs es e e', bs_probabilities m [[0; 0]; [0; 1]] = Ok probs /\ expected_item_scores 2 3 None probs = Ok es /\
    at2 es 0 1 = Some (Some e) /\ at2 es 1 1 = Some (Some e') /\ e < e'.
Proof.
  intro m. destruct (C86_monotone [3; 2]%nat 2 None 3 "items" m [[0; 0]; [0; 1]] 0 1 [0; 0] [0; 1] 1 1 2)
    as (probs & p & p' & es & e & e' & H1 & H2 & H3 & H4 & H5 & _ & _ & H6); try (unfold same_bspl; repeat split; reflexivity); try lia; auto.
  - intros i j [Hij Hj]. cbn in Hj. destruct i as [|[|[|[|[|i]]]]], j as [|[|[|[|[|j]]]]]; cbn; lra || lia.
  - unfold increases_in. split; [reflexivity|]. split; [cbn; lra|]. intros [|[|e]] He; cbn; lia || (try destruct e; reflexivity).
  - exists probs, es, e, e'. destruct (H6 ltac:(lia)) as [_ H7]. repeat (split; [assumption|]). apply H7. lia.
Qed.
(** A new model has one increment, -2.5, for every latent variable, basis function and item (or for every basis function
    and category above the lowest) and zero intercepts; the default knots lie symmetrically around zero. *)
Theorem C86_new_model : forall cats lv knots degree separate, Forall (fun K => (1 <= K)%nat) cats ->
  let m := bs_init cats lv knots degree separate in
  let n := (match knots with Some k => length k | None => 5 end + degree + 1)%nat in
  length (bs_coef m) = (if String.eqb separate "items" then lv * n * length cats else n * list_sum (map pred cats))%nat /\
  (forall x, In x (bs_coef m) -> x = -5/2) /\ length (bs_bias m) = list_sum (map pred cats) /\ (forall x, In x (bs_bias m) -> x = 0) /\
  (knots = None -> forall j, (j < length (bs_knots m))%nat -> nth j (bs_knots m) 0 + nth (length (bs_knots m) - 1 - j) (bs_knots m) 0 = 1).
Proof.
  intros cats lv knots degree separate HF m n.
  assert (EN : n_bases degree (knot_vector degree knots) = n).
  { unfold n_bases, knot_vector, n. rewrite !app_length, !repeat_length, map_length. destruct knots; cbn [length default_knots]; lia. }
  unfold m, bs_init. cbn [bs_coef bs_bias bs_knots]. rewrite EN, !repeat_length. split; [|split; [|split; [|split]]].
  - destruct (separate =? "items")%string; [reflexivity|]. rewrite bs_mask_rows, ctrue_concat_repeat. now rewrite ctrue_free_bias.
  - intros x Hx. now apply repeat_spec in Hx.
  - now apply ctrue_free_bias.
  - intros x Hx. now apply repeat_spec in Hx.
  - intros ->.
    assert (RV : rev (knot_vector degree None) = map (fun x => 1 - x) (knot_vector degree None)).
    { unfold knot_vector. rewrite !rev_app_distr, !map_app, <- app_assoc. rewrite !map_repeat, Rminus_0_r, Rminus_diag_eq by reflexivity.
      assert (RR : forall (x : R) k, rev (repeat x k) = repeat x k).
      { intros x. induction k as [|k IH]; [reflexivity|]. cbn [repeat rev]. rewrite IH. symmetry. apply (repeat_cons k x). }
      assert (O : forall x y, x = - y -> logistic x = 1 - logistic y) by (intros x y ->; rewrite logistic_compl; unfold logistic; now rewrite Ropp_involutive).
      rewrite !RR. f_equal. f_equal. unfold default_knots. cbn [map rev app].
      rewrite <- (O (17/10) (-17/10)), <- (O (7/10) (-7/10)), <- (O 0 0), <- (O (-7/10) (7/10)), <- (O (-17/10) (17/10)) by field. reflexivity. }
    intros j Hj. set (kv := knot_vector degree None) in *. assert (E : nth j (rev kv) 0 = nth (length kv - S j) kv 0) by (now apply rev_nth).
    rewrite RV in E. rewrite (nth_indep _ 0 ((fun x => 1 - x) 0)) in E by (now rewrite map_length). rewrite (map_nth (fun x => 1 - x)) in E.
    replace (length kv - 1 - j)%nat with (length kv - S j)%nat by lia. rewrite <- E. ring.
Qed.
Print Assumptions C86_new_model.
(** A batch without respondents is refused. *)
Theorem C86_empty_batch : forall cats lv knots degree separate m, same_bspl (bs_init cats lv knots degree separate) m ->
  bs_forward m [] = Err RuntimeError.
Proof.
  intros cats lv knots degree separate m (_ & _ & _ & _ & _ & _ & _ & E). unfold bs_forward. rewrite E. reflexivity.
Qed.
Print Assumptions C86_empty_batch.
(** Separate splines, one latent variable. *)
Example C86_categories_nonvacuous : let m := bs_init [3; 2]%nat 1 (Some [0]) 1 "categories" in
  exists probs es e e', bs_probabilities m [[0]; [1]] = Ok probs /\ expected_item_scores 2 3 None probs = Ok es /\
    at2 es 0 0 = Some (Some e) /\ at2 es 1 0 = Some (Some e') /\ e < e'.
Proof.
  intro m. destruct (C86_monotone [3; 2]%nat 1 (Some [0]) 1 "categories" m [[0]; [1]] 0 1 [0] [1] 0 0 3)
    as (probs & p & p' & es & e & e' & H1 & H2 & H3 & H4 & H5 & _ & _ & H6); try (unfold same_bspl; repeat split; reflexivity); try lia; auto.
  - intros i j [Hij Hj]. cbn in Hj. assert (i = 0%nat) by lia. assert (j = 0%nat) by lia. subst. cbn. lra.
  - unfold increases_in. split; [reflexivity|]. split; [cbn; lra|]. intros [|e] He; cbn; lia || (try destruct e; reflexivity).
  - exists probs, es, e, e'. destruct (H6 ltac:(lia)) as [_ H7]. repeat (split; [assumption|]). apply H7. lia.
Qed.

(** ** C21 with the model's own splines *)
(** The surprisal model evaluated at latent scores: each item has a distribution over its categories, and raising a latent
    variable never lowers its expected score. *)
Theorem C21_splines : forall m knots theta r r' t t' d i K, ss_basis m = None -> (0 < ss_lv m)%nat ->
  ss_knots m = knot_vector (ss_degree m) knots -> in_order (match knots with Some l => l | None => default_knots end) ->
  Forall (fun K => (1 <= K)%nat) (ss_cats m) -> Forall (fun t => length t = ss_lv m) theta ->
  nth_error theta r = Some t -> nth_error theta r' = Some t' -> increases_in d t t' -> nth_error (ss_cats m) i = Some K ->
  (exists e, (e < ss_lv m)%nat /\ ss_rel m i e = true) ->
  exists out p p', ss_forward m theta = Ok out /\ at2 out r i = Some p /\ at2 out r' i = Some p' /\
    length p = list_max (ss_cats m) /\ valid_distribution K (list_max (ss_cats m)) (fun k => nth k p 0) /\
    sumn (list_max (ss_cats m)) (fun k => INR k * nth k p 0) <= sumn (list_max (ss_cats m)) (fun k => INR k * nth k p' 0).
Proof.
  intros m knots theta r r' t t' d i K Hb Hlv Hkn Ho HF HT Hr Hr' Hinc Hi (e & He & Hrel).
  destruct (ss_forward_ok m theta Hb Hlv) as (out & Eo & Hl & Ha); [intro X; subst; destruct r; discriminate|exact HT|].
  destruct (Ha r t i K Hr Hi) as (B & HB & Ep). destruct (Ha r' t' i K Hr' Hi) as (B' & HB' & Ep').
  rewrite Hkn in *. set (p := ss_degree m) in *. set (kv := knot_vector p knots) in *. set (n := n_bases p kv) in *. set (M := list_max (ss_cats m)) in *.
  assert (HK : (1 <= K <= M)%nat) by (rewrite Forall_forall in HF; split; [apply HF; eapply nth_error_In; eauto|apply list_max_bound; eapply nth_error_In; eauto]).
  eexists out, _, _. split; [exact Eo|]. split; [exact Ep|]. split; [exact Ep'|].
  assert (Hs : 0 < sumn n (B e)).
  { rewrite (sumn_ext n (B e) (fun b => bbasis (fun j => nth j kv 0) p b (logistic (nth e t 0)))) by (intros b Hb'; now apply HB).
    pose proof (logistic_bounds (nth e t 0)). unfold n, kv. rewrite (basis_sum p knots Ho) by lra. lra. }
  destruct (positive_term n (B e) Hs) as (b & Hbn & Hbp).
  pose proof (C21_forward (ss_lv m) n M K (ss_rel m i) B (ss_coef m i) e b HK) as F. cbv zeta in F.
  destruct F as [F1 F2]; auto.
  { intros d0 b0 Hd0 Hb0. rewrite HB by auto. apply (basis_nonneg p knots Ho). exact Hb0. }
  split; [exact F1|]. split; [exact F2|].
  apply (C21_expected_score_monotone (ss_lv m) n M K (ss_rel m i) B B' (ss_coef m i)); [lia|].
  intros d0 j Hd0 Hj.
  rewrite (sumn_ext n (B d0) _ (fun b Hb' => HB d0 b Hd0 Hb')), (sumn_ext n (B' d0) _ (fun b Hb' => HB' d0 b Hd0 Hb')).
  rewrite (sumn_ext j (B d0) _ (fun b Hb' => HB d0 b Hd0 (Nat.lt_trans _ _ _ Hb' Hj))), (sumn_ext j (B' d0) _ (fun b Hb' => HB' d0 b Hd0 (Nat.lt_trans _ _ _ Hb' Hj))).
  apply (tails_monotone p knots Ho); [|apply logistic_bounds|fold kv; fold n; lia]. apply logistic_le_iff. now apply increases_le with d.
Qed.
Print Assumptions C21_splines.
Example C21_splines_nonvacuous : let m := {| ss_cats := [3; 2]%nat; ss_lv := 2; ss_degree := 3; ss_knots := knot_vector 3 None;
    ss_rel := fun i d => (i =? d)%nat; ss_coef := fun i d b c => INR b - 1; ss_basis := None |} in
  exists out p p', ss_forward m [[0; 0]; [1; 0]] = Ok out /\ at2 out 0 0 = Some p /\ at2 out 1 0 = Some p' /\
    sumn 3 (fun k => INR k * nth k p 0) <= sumn 3 (fun k => INR k * nth k p' 0).
Proof.
  intro m. destruct (C21_splines m None [[0; 0]; [1; 0]] 0 1 [0; 0] [1; 0] 0 0 3) as (out & p & p' & H1 & H2 & H3 & _ & _ & H4);
    try reflexivity; try (cbn; lia); try (repeat constructor; fail).
  - intros i j [Hij Hj]. cbn in Hj. destruct i as [|[|[|[|[|i]]]]], j as [|[|[|[|[|j]]]]]; cbn; lra || lia.
  - unfold increases_in. split; [reflexivity|]. split; [cbn; lra|]. intros [|[|e]] He; cbn; lia || (try destruct e; reflexivity).
  - exists 0%nat. split; [cbn; lia|reflexivity].
  - exists out, p, p'. auto.
Qed.
