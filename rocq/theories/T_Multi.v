(** Property theorems C111: fitting several models in a pool of processes. *)
From Verif Require Import Base BaseFacts M_Multi P_Multi S_Multi.
Import List.
From Coq Require Import Permutation.

(** With at most four models per process every model comes back as if it had been fitted alone by a fresh copy of the
    algorithm: in the order given, each with its own algorithm; the caller's objects and the number of threads are as before. *)
Theorem C111_alone : forall {M A D} (fit : M -> A -> D -> result (M * A)) data a al transport arrival cpus threads cores (h : heap M A) models (states : list M) (fitted : list (M * A)),
  let p := match cores with Some c => c | None => Nat.min (length models) cpus end in
  0 < p -> length models <= 4 * p -> (forall k, transport k = None) ->
  nth_error (h_algorithms h) a = Some al -> Forall2 (fun m s => exists o, nth_error (h_models h) m = Some (s, o)) models states ->
  Forall2 (fun s f => fit s al data = Ok f) states fitted ->
  exists addresses h', fit_multiple fit data (Kwargs (Some a) false) transport arrival cpus threads cores h models = (Ok (addresses, h'), threads) /\
    length addresses = length models /\
    (forall i x, nth_error (h_models h) i = Some x -> nth_error (h_models h') i = Some x) /\ (forall i x, nth_error (h_algorithms h) i = Some x -> nth_error (h_algorithms h') i = Some x) /\
    exists own, (forall i j, i < j -> own i < own j) /\
    forall i f, nth_error fitted i = Some f -> exists at_, nth_error addresses i = Some at_ /\ length (h_models h) <= at_ /\ length (h_algorithms h) <= own i /\
      nth_error (h_models h') at_ = Some (fst f, Some (own i)) /\ nth_error (h_algorithms h') (own i) = Some (snd f).
Proof.
  intros M A D fit data a al transport arrival cpus threads cores h models states fitted p Hp Hn HT HA HS HF.
  unfold fit_multiple. fold p. destruct p as [|p'] eqn:Ep; [lia|]. rewrite <- Ep in *.
  assert (LS : length states = length models) by (clear - HS; induction HS; cbn; congruence). assert (LF : length fitted = length states) by (clear - HF; induction HF; cbn; congruence).
  destruct models as [|m0 models'] eqn:EM.
  - exists [], h. rewrite starmap_nil. split; [reflexivity|]. split; [reflexivity|]. split; [auto|]. split; [auto|]. exists (fun i => length (h_algorithms h) + i). split; [intros; lia|]. intros i f Hi. destruct fitted; [destruct i; discriminate|cbn in LF, LS; lia].
  - rewrite <- EM in *. assert (Hne : models <> []) by (rewrite EM; discriminate). assert (Hc : chunk_size (length models) p = 1) by (apply chunk_size_one; [rewrite EM; cbn; lia|exact Hn]).
    set (W := fun c => match run_chunk fit data (Kwargs (Some a) false) h c with Ok w => w | Err _ => h end).
    assert (R : forall i m f, nth_error models i = Some m -> nth_error fitted i = Some f ->
       run_chunk fit data (Kwargs (Some a) false) h [m] = Ok (Heap (upd m (fst f, Some a) (h_models h)) (upd a (snd f) (h_algorithms h))) /\ m < length (h_models h)).
    { clear - HA HS HF. revert fitted HF. induction HS as [|m s ms ss (o & Hm) HS IH]; intros fitted HF i m' f H1 H2; [destruct i; discriminate|]. inversion HF as [|? f0 ? fs Hf HF']; subst. destruct i as [|i].
      - injection H1 as <-. injection H2 as <-. split; [|apply nth_error_Some; congruence]. cbn [run_chunk]. unfold fit_model. cbn [kw_device kw_algorithm]. now rewrite Hm, HA, Hf.
      - exact (IH fs HF' i m' f H1 H2). }
    destruct (starmap_results fit data (Kwargs (Some a) false) transport arrival p h models W Hp Hne HT) as (h' & E & K1 & K2 & Q).
    { intros c Hin. rewrite Hc in Hin. apply In_nth_error in Hin as (i & Hi). rewrite nth_error_blocks in Hi by lia. destruct (Nat.ltb_spec (i * 1) (length models)) as [L|L]; [|discriminate]. assert (Hb : c = firstn 1 (skipn (i * 1) models)) by congruence. subst c.
      destruct (nth_error models i) as [m|] eqn:Em; [|apply nth_error_None in Em; lia]. destruct (nth_error fitted i) as [f|] eqn:Ef; [|apply nth_error_None in Ef; lia].
      replace (firstn 1 (skipn (i * 1) models)) with [m] by (rewrite Nat.mul_1_r; pose proof (nth_error_skipn_add i models 0) as Z; rewrite Nat.add_0_r, Em in Z; destruct (skipn i models); [discriminate|]; cbn in *; congruence).
     
      unfold W. destruct (R i m f Em Ef) as [-> _]. reflexivity. }
    rewrite Hc in *. rewrite E. do 2 eexists. split; [reflexivity|]. split; [apply mapi_length|]. split; [exact K1|]. split; [exact K2|].
    exists (fun i => length (h_algorithms h) + i / 1 * length (h_algorithms h) + a). assert (La : a < length (h_algorithms h)) by (apply nth_error_Some; congruence). split; [intros i j Hij; rewrite !Nat.div_1_r; nia|].
    intros i f Hf. assert (Hi : i < length models) by (rewrite <- LS, <- LF; apply nth_error_Some; congruence). destruct (nth_error models i) as [m|] eqn:Em; [|apply nth_error_None in Em; lia].
    destruct (R i m f Em Hf) as [ER Lm]. destruct (Q i Hi) as [Q1 Q2].
    assert (EB : batch 1 i models = [m]) by (unfold batch; rewrite Nat.div_1_r, Nat.mul_1_r; pose proof (nth_error_skipn_add i models 0) as Z; rewrite Nat.add_0_r, Em in Z; destruct (skipn i models); [discriminate|]; cbn in *; congruence).
    rewrite EB in Q1, Q2. unfold W in Q1, Q2. rewrite ER in Q1, Q2. cbn [h_models h_algorithms] in Q1, Q2.
    exists (length (h_models h) + i / 1 * length (h_models h) + m). split; [rewrite nth_error_mapi, Em; reflexivity|]. split; [lia|]. split; [lia|]. split.
    + rewrite (Q1 m (fst f, Some a)); [reflexivity|]. now apply nth_error_upd_eq.
    + apply Q2. now apply nth_error_upd_eq.
Qed.
Print Assumptions C111_alone.
Definition add_fit (m a d : nat) : result (nat * nat) := Ok (m + a + d, a + d).
Example C111_alone_nonvacuous : fit_multiple add_fit 10 (Kwargs (Some 0) false) (fun _ => None) [1; 0] 8 6 None (Heap [(1, None); (2, None)] [5]) [1; 0] =
  (Ok ([3; 4], Heap [(1, None); (2, None); (1, None); (17, Some 1); (16, Some 2); (2, None)] [5; 15; 15]), 6).
Proof. reflexivity. Qed.

(** With more models than that the pool sends them in batches of [c], and the models of a batch share one copy of the algorithm:
    exactly the state in which each is fitted and returned. *)
Theorem C111_batches : forall {M A D} (fit : M -> A -> D -> result (M * A)) (g : M -> A -> M * A) data a al transport arrival cpus threads cores (h : heap M A) models (states : list M),
  let p := match cores with Some c => c | None => Nat.min (length models) cpus end in
  0 < p -> models <> [] -> NoDup models -> (forall k, transport k = None) -> (forall m b, fit m b data = Ok (g m b)) ->
  nth_error (h_algorithms h) a = Some al -> Forall2 (fun m s => exists o, nth_error (h_models h) m = Some (s, o)) models states ->
  exists c addresses h', c = length models / (4 * p) + (if length models mod (4 * p) =? 0 then 0 else 1) /\
    fit_multiple fit data (Kwargs (Some a) false) transport arrival cpus threads cores h models = (Ok (addresses, h'), threads) /\ length addresses = length models /\
    exists own, forall i s, nth_error states i = Some s -> exists at_, nth_error addresses i = Some at_ /\
      nth_error (h_models h') at_ = Some (fst (g s (after g al (earlier c i states))), Some (own (i / c))) /\
      nth_error (h_algorithms h') (own (i / c)) = Some (after g al (batch c i states)).
Proof.
  intros M A D fit g data a al transport arrival cpus threads cores h models states p Hp Hne HN HT HG HA HS.
  set (c := chunk_size (length models) p). assert (Hc : 0 < c) by (apply chunk_size_pos; [destruct models; [congruence|cbn; lia]|exact Hp]).
  assert (LS : length states = length models) by (clear - HS; induction HS; cbn; congruence).
  set (W := fun c => match run_chunk fit data (Kwargs (Some a) false) h c with Ok w => w | Err _ => h end).
  assert (HSn : forall i m s, nth_error models i = Some m -> nth_error states i = Some s -> exists o, nth_error (h_models h) m = Some (s, o)).
  { clear - HS. induction HS as [|m s ms ss Hm HS IH]; intros [|i] m' s' H1 H2; try discriminate; [injection H1 as <-; injection H2 as <-; exact Hm|eauto]. }
  assert (SUB : forall k n, Forall2 (fun m s => exists o, nth_error (h_models h) m = Some (s, o)) (firstn n (skipn k models)) (firstn n (skipn k states))).
  { clear - HS. assert (G : forall k, Forall2 (fun m s => exists o, nth_error (h_models h) m = Some (s, o)) (skipn k models) (skipn k states)).
    { induction HS as [|m s ms ss Hm HS IH]; intros [|k]; cbn [skipn]; try constructor; auto. }
    intros k n. generalize (G k). generalize (skipn k models) (skipn k states). clear. intros l1 l2 H. revert n. induction H; intros [|n]; cbn [firstn]; constructor; auto. }
  assert (ND : forall k n, NoDup (firstn n (skipn k models))).
  { intros k n. assert (G : NoDup (skipn k models)) by (clear - HN; revert k; induction HN; intros [|k]; cbn [skipn]; try constructor; auto).
    revert n. generalize G. generalize (skipn k models). clear. intros l H. induction H as [|x l Hx H IH]; intros [|n]; cbn [firstn]; constructor; auto. intro Hin. apply Hx. clear - Hin. revert n Hin; induction l as [|y l IHl]; intros [|n] Hin; cbn in Hin; try contradiction. destruct Hin; [now left|right; eauto]. }
  assert (RC : forall i, i < length models -> exists w, W (batch c i models) = w /\ run_chunk fit data (Kwargs (Some a) false) h (batch c i models) = Ok w /\ nth_error (h_algorithms w) a = Some (after g al (batch c i states)) /\
     forall j m s, nth_error (batch c i models) j = Some m -> nth_error (batch c i states) j = Some s -> nth_error (h_models w) m = Some (fst (g s (after g al (firstn j (batch c i states)))), Some a)).
  { intros i Hi. destruct (run_chunk_states fit data a g HG (batch c i models) h (batch c i states) al (ND _ _) HA (SUB _ _)) as (w & E1 & E2 & _ & E3). exists w. split; [unfold W; now rewrite E1|]. split; [exact E1|]. split; [exact E2|exact E3]. }
  destruct (starmap_results fit data (Kwargs (Some a) false) transport arrival p h models W Hp Hne HT) as (h' & E & K1 & K2 & Q).
  { intros blk Hin. apply In_nth_error in Hin as (k & Hk). fold c in Hk. rewrite nth_error_blocks in Hk by lia. destruct (Nat.ltb_spec (k * c) (length models)) as [L|L]; [|discriminate]. injection Hk as <-.
    destruct (RC (k * c) L) as (w & E1 & E2 & _). unfold batch in E1, E2. rewrite Nat.div_mul in E1, E2 by lia. rewrite E2. now rewrite <- E1. }
  fold c in Q, E. exists c, (mapi (fun i m => length (h_models h) + i / c * length (h_models h) + m) models), h'. split; [reflexivity|]. split.
  - unfold fit_multiple. fold p. destruct p as [|p'] eqn:Ep; [lia|]. rewrite <- Ep in *. now rewrite E.
  - split; [apply mapi_length|]. exists (fun k => length (h_algorithms h) + k * length (h_algorithms h) + a). intros i s Hs. assert (Hi : i < length models) by (rewrite <- LS; apply nth_error_Some; congruence).
    destruct (nth_error models i) as [m|] eqn:Em; [|apply nth_error_None in Em; lia]. destruct (RC i Hi) as (w & E1 & _ & E2 & E3). destruct (Q i Hi) as [Q1 Q2]. rewrite E1 in Q1, Q2.
    exists (length (h_models h) + i / c * length (h_models h) + m). split; [now rewrite nth_error_mapi, Em|]. split.
    + rewrite (Q1 m (fst (g s (after g al (earlier c i states))), Some a)); [reflexivity|]. apply (E3 (i mod c) m s).
      * destruct (nth_error_blocks_at c models i Hc Hi) as (blk & _ & -> & Eb). unfold batch. now rewrite Eb.
      * destruct (nth_error_blocks_at c states i Hc ltac:(lia)) as (blk & _ & -> & Eb). unfold batch. now rewrite Eb.
    + apply Q2. exact E2.
Qed.
Print Assumptions C111_batches.
Example C111_batches_nonvacuous : fit_multiple add_fit 10 (Kwargs (Some 0) false) (fun _ => None) [2; 1; 0] 8 6 (Some 1) (Heap [(1, None); (2, None); (3, None); (4, None); (5, None)] [5]) [0; 1; 2; 3; 4] =
  (Ok ([5; 6; 12; 13; 19],
       Heap [(1, None); (2, None); (3, None); (4, None); (5, None);
             (16, Some 1); (27, Some 1); (3, None); (4, None); (5, None);
             (1, None); (2, None); (18, Some 2); (29, Some 2); (5, None);
             (1, None); (2, None); (3, None); (4, None); (20, Some 3)] [5; 25; 25; 15]), 6).
Proof. reflexivity. Qed.

(** So above four models per process the models are not fitted as if alone: the first two share an algorithm, the second is fitted
    by the algorithm as the first left it, and the algorithm the first is returned with has been used for at least one more
    model.  With the training data all algorithms keep (BaseIRTAlgorithm.fit appends them), the first model's algorithm holds the
    data as many times as there are models in its batch. *)
Theorem C111_shared_refuted : forall {M A D} (fit : M -> A -> D -> result (M * A)) (g : M -> A -> M * A) data a al transport arrival cpus threads cores (h : heap M A) models s1 s2 (states : list M),
  let p := match cores with Some c => c | None => Nat.min (length models) cpus end in
  0 < p -> 4 * p < length models -> NoDup models -> (forall k, transport k = None) -> (forall m b, fit m b data = Ok (g m b)) ->
  nth_error (h_algorithms h) a = Some al -> Forall2 (fun m s => exists o, nth_error (h_models h) m = Some (s, o)) models (s1 :: s2 :: states) ->
  exists addresses h' at1 at2 shared others, fit_multiple fit data (Kwargs (Some a) false) transport arrival cpus threads cores h models = (Ok (addresses, h'), threads) /\
    nth_error addresses 0 = Some at1 /\ nth_error addresses 1 = Some at2 /\
    nth_error (h_models h') at1 = Some (fst (g s1 al), Some shared) /\
    nth_error (h_models h') at2 = Some (fst (g s2 (snd (g s1 al))), Some shared) /\
    nth_error (h_algorithms h') shared = Some (after g (snd (g s2 (snd (g s1 al)))) others) /\
    forall (kept : A -> list nat) rows, (forall m b, kept (snd (g m b)) = kept b ++ rows) -> exists b, nth_error (h_algorithms h') shared = Some b /\ kept b = kept al ++ concat (repeat rows (2 + length others)).
Proof.
  intros M A D fit g data a al transport arrival cpus threads cores h models s1 s2 states p Hp Hn HN HT HG HA HS.
  assert (Hne : models <> []) by (intros ->; cbn in Hn; lia).
  destruct (C111_batches fit g data a al transport arrival cpus threads cores h models (s1 :: s2 :: states) Hp Hne HN HT HG HA HS) as (c & addresses & h' & Ec & E & _ & own & Q).
  assert (Hc : 2 <= c) by (rewrite Ec; now apply chunk_size_two). destruct (Q 0 s1 eq_refl) as (at1 & A1 & B1 & C1). destruct (Q 1 s2 eq_refl) as (at2 & A2 & B2 & C2). rewrite !(Nat.div_small 1) in B2 by lia.
  assert (D0 : 0 / c = 0) by (apply Nat.div_small; lia). rewrite D0 in *. unfold batch in C1. rewrite D0 in C1. cbn [Nat.mul skipn] in C1. destruct c as [|[|c]]; [lia|lia|]. cbn [firstn] in C1.
  exists addresses, h', at1, at2, (own 0), (firstn c states). split; [exact E|]. split; [exact A1|]. split; [exact A2|]. split; [|split; [|split]].
  - unfold earlier in B1. rewrite Nat.mod_small in B1 by lia. cbn [firstn] in B1. exact B1.
  - unfold earlier in B2. rewrite Nat.mod_small in B2 by lia. unfold batch in B2. rewrite Nat.div_small in B2 by lia. cbn [Nat.mul skipn firstn] in B2. exact B2.
  - exact C1.
  - intros kept rows Hk. eexists. split; [exact C1|].
    assert (G : forall l b, kept (after g b l) = kept b ++ concat (repeat rows (length l))).
    { induction l as [|x l IH]; intro b; [cbn; now rewrite app_nil_r|]. unfold after in *. cbn [fold_left length repeat concat]. now rewrite IH, Hk, app_assoc. }
    rewrite G. reflexivity.
Qed.
Print Assumptions C111_shared_refuted.
(** Five one-row data sets and one process: the algorithm of the first model has seen the rows twice. *)
Example C111_shared_refuted_nonvacuous : let fit := fun (m : nat) (a d : list nat) => Ok (m + length a, a ++ d) in
  fit_multiple fit [7] (Kwargs (Some 0) false) (fun _ => None) [] 8 6 (Some 1) (Heap [(1, None); (2, None); (3, None); (4, None); (5, None)] [[]]) [0; 1; 2; 3; 4] =
  (Ok ([5; 6; 12; 13; 19],
       Heap [(1, None); (2, None); (3, None); (4, None); (5, None);
             (1, Some 1); (3, Some 1); (3, None); (4, None); (5, None);
             (1, None); (2, None); (3, Some 2); (5, Some 2); (5, None);
             (1, None); (2, None); (3, None); (4, None); (5, Some 3)] [[]; [7; 7]; [7; 7]; [7]]), 6).
Proof. reflexivity. Qed.

(** If some model cannot be fitted alone, an exception of one such model is raised, whichever arrives first; threads are restored. *)
Theorem C111_failure : forall {M A D} (fit : M -> A -> D -> result (M * A)) data a al transport arrival cpus threads cores (h : heap M A) models (states : list M),
  let p := match cores with Some c => c | None => Nat.min (length models) cpus end in
  0 < p -> length models <= 4 * p -> (forall k, transport k = None) -> Permutation arrival (seq 0 (length models)) ->
  nth_error (h_algorithms h) a = Some al -> Forall2 (fun m s => exists o, nth_error (h_models h) m = Some (s, o)) models states ->
  (exists s e, In s states /\ fit s al data = Err e) ->
  exists s e, In s states /\ fit s al data = Err e /\ fit_multiple fit data (Kwargs (Some a) false) transport arrival cpus threads cores h models = (Err e, threads).
Proof.
  intros M A D fit data a al transport arrival cpus threads cores h models states p Hp Hn HT HP HA HS (s0 & e0 & Hs0 & He0).
  assert (LS : length states = length models) by (clear - HS; induction HS; cbn; congruence).
  assert (Hc : chunk_size (length models) p = 1) by (apply chunk_size_one; [rewrite <- LS; destruct states; [destruct Hs0|cbn; lia]|exact Hn]).
  unfold fit_multiple. fold p. destruct p as [|p'] eqn:Ep; [lia|]. rewrite <- Ep in *. unfold starmap. rewrite Hc. set (outs := mapi _ (blocks 1 models)).
  assert (O : forall k s, nth_error states k = Some s -> match fit s al data with Err e => nth_error outs k = Some (Err e) | Ok _ => exists w, nth_error outs k = Some (Ok w) end).
  { intros k s Hs. assert (Hk : k < length models) by (rewrite <- LS; apply nth_error_Some; congruence). destruct (nth_error models k) as [m|] eqn:Em; [|apply nth_error_None in Em; lia].
    assert (Hm : exists o, nth_error (h_models h) m = Some (s, o)) by (clear - HS Em Hs; revert k Em Hs; induction HS; intros [|k] E1 E2; try discriminate; [injection E1 as <-; injection E2 as <-; assumption|eauto]). destruct Hm as (o & Hm).
    assert (EO : nth_error outs k = Some (run_chunk fit data (Kwargs (Some a) false) h [m])).
    { unfold outs. rewrite nth_error_mapi, nth_error_blocks by lia. rewrite Nat.mul_1_r. apply Nat.ltb_lt in Hk. rewrite Hk. cbn [option_map]. rewrite HT. pose proof (nth_error_skipn_add k models 0) as Z. rewrite Nat.add_0_r, Em in Z. destruct (skipn k models); [discriminate|]. cbn in Z. injection Z as ->. reflexivity. }
    cbn [run_chunk] in EO. unfold fit_model in EO. cbn [kw_device kw_algorithm] in EO. rewrite Hm, HA in EO. destruct (fit s al data) as [ma|e]; cbn [bind] in EO; [eexists; exact EO|exact EO]. }
  set (failed := flat_map _ arrival).
  assert (F1 : In e0 failed).
  { apply In_nth_error in Hs0 as (k & Hk). apply in_flat_map. exists k. split.
    - apply (Permutation_in _ (Permutation_sym HP)). apply in_seq. split; [lia|]. cbn. rewrite <- LS. apply nth_error_Some. congruence.
    - specialize (O k s0 Hk). rewrite He0 in O. rewrite O. now left. }
  assert (F2 : forall e, In e failed -> exists s, In s states /\ fit s al data = Err e).
  { intros e He. apply in_flat_map in He as (k & Hk & He). apply (Permutation_in _ HP), in_seq in Hk. destruct (nth_error states k) as [s|] eqn:Es; [|apply nth_error_None in Es; lia]. specialize (O k s Es). exists s. split; [now apply nth_error_In in Es|].
    destruct (fit s al data) as [ma|e']; [destruct O as (w & O)|]; rewrite O in He; [destruct He|]. destruct He as [->|[]]. reflexivity. }
  destruct failed as [|e failed]; [destruct F1|]. destruct (F2 e (or_introl eq_refl)) as (s & Hs & He). exists s, e. split; [exact Hs|]. split; [exact He|reflexivity].
Qed.
Print Assumptions C111_failure.
Example C111_failure_nonvacuous : let fit := fun (m a d : nat) => if m =? 2 then Err ValueError else if m =? 3 then Err RuntimeError else Ok (m + d, a) in
  fit_multiple fit 1 (Kwargs (Some 0) false) (fun _ => None) [2; 0; 1] 8 6 None (Heap [(1, None); (2, None); (3, None)] [5]) [0; 1; 2] = (Err RuntimeError, 6).
Proof. reflexivity. Qed.

(** No models: ValueError instead of an empty list, unless the number of processes is given. *)
Theorem C111_empty_refuted : forall {M A D} (fit : M -> A -> D -> result (M * A)) data kw transport arrival cpus threads (h : heap M A),
  fit_multiple fit data kw transport arrival cpus threads None h [] = (Err ValueError, threads) /\
  forall c, fit_multiple fit data kw transport arrival cpus threads (Some (S c)) h [] = (Ok ([], h), threads).
Proof. intros. split; [reflexivity|]. intro c. unfold fit_multiple. now rewrite starmap_nil. Qed.
Print Assumptions C111_empty_refuted.
(** The function passes [device] itself: a call that passes it too fails, whatever the models. *)
Theorem C111_device_refuted : forall {M A D} (fit : M -> A -> D -> result (M * A)) data alg transport arrival cpus threads cores (h : heap M A) models,
  let p := match cores with Some c => c | None => Nat.min (length models) cpus end in
  0 < p -> models <> [] -> (forall k, transport k = None) -> (exists k, In k arrival /\ k = 0) ->
  fit_multiple fit data (Kwargs alg true) transport arrival cpus threads cores h models = (Err TypeError, threads).
Proof.
  intros M A D fit data alg transport arrival cpus threads cores h models p Hp Hne HT (k0 & Hk0 & ->). unfold fit_multiple. fold p. destruct p as [|p'] eqn:Ep; [lia|]. rewrite <- Ep in *. unfold starmap.
  assert (Hc : 0 < chunk_size (length models) p) by (apply chunk_size_pos; [destruct models; [congruence|cbn; lia]|exact Hp]). set (c := chunk_size _ _) in *. set (outs := mapi _ (blocks c models)).
  assert (O : forall k o, nth_error outs k = Some o -> o = Err TypeError).
  { intros k o Ho. unfold outs in Ho. rewrite nth_error_mapi, nth_error_blocks in Ho by lia. destruct (Nat.ltb_spec (k * c) (length models)) as [L|L]; [|discriminate]. cbn [option_map] in Ho. rewrite HT in Ho.
    destruct (skipn (k * c) models) as [|m ms] eqn:Es; [apply (f_equal (@length _)) in Es; rewrite skipn_length in Es; cbn in Es; lia|]. destruct c as [|c']; [lia|]. cbn in Ho. congruence. }
  assert (O0 : exists o, nth_error outs 0 = Some o).
  { unfold outs. rewrite nth_error_mapi, nth_error_blocks by lia. destruct models; [congruence|]. cbn [Nat.mul Nat.ltb Nat.leb length option_map]. eexists. reflexivity. }
  set (failed := flat_map _ arrival). assert (F1 : In TypeError failed).
  { apply in_flat_map. exists 0. split; [exact Hk0|]. destruct O0 as (o & Ho). rewrite Ho, (O 0 o Ho). now left. }
  assert (F2 : forall e, In e failed -> e = TypeError).
  { intros e He. apply in_flat_map in He as (k & Hk & He). destruct (nth_error outs k) as [o|] eqn:Eo; [|destruct He]. rewrite (O k o Eo) in He. destruct He as [<-|[]]. reflexivity. }
  destruct failed as [|e failed]; [destruct F1|]. now rewrite (F2 e (or_introl eq_refl)).
Qed.
Print Assumptions C111_device_refuted.
Example C111_device_nonvacuous : fit_multiple add_fit 10 (Kwargs (Some 0) true) (fun _ => None) [1; 0] 8 6 None (Heap [(1, None); (2, None)] [5]) [1; 0] = (Err TypeError, 6).
Proof. reflexivity. Qed.
