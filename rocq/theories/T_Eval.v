(** Theorems about the evaluator: classification metrics (C53), residuals (C54, C75), groups of respondents (C55, C76),
    log-likelihoods (C56, C77), infit and outfit (C78). *)
From Coq Require Import String.
From Verif Require Import Base BaseFacts RBase RFacts M_Data M_Logit M_Lik M_Est M_Stat M_Grid M_Eval S_Lik S_Est S_Eval P_Est2 P_Eval1 P_Eval2 P_Eval3 P_Eval4 P_Eval5 P_Eval6 P_Eval7 P_Eval8 P_Eval9.
Import List.
Local Open Scope R_scope.

Lemma some_inj {A} (a b : A) : Some a = Some b -> a = b.
Proof. congruence. Qed.

(** ** C53: classification metrics *)
(** Accuracy is the share of the observed answers that are the most probable category. *)
Theorem C53_accuracy N I probs rows pred : rect N I probs -> rect N I rows ->
  (forall n i p, at2 probs n i = Some p -> top p (pred n i)) ->
  accuracy probs (Wide I rows) LItem = Ok (Vec (map (fun i =>
    share (tally (fun n => chose rows n i (pred n i)) (everyone N)) (tally (fun n => seen rows n i) (everyone N))) (seq 0 I))) /\
  accuracy probs (Wide I rows) LRespondent = Ok (Vec (map (fun n =>
    share (tally (fun i => chose rows n i (pred n i)) (seq 0 I)) (tally (fun i => seen rows n i) (seq 0 I))) (seq 0 N))) /\
  accuracy probs (Wide I rows) LAll = Ok (One
    (share (tally (fun c => chose rows (fst c) (snd c) (pred (fst c) (snd c))) (all_cells N I))
           (tally (fun c => seen rows (fst c) (snd c)) (all_cells N I)))).
Proof. apply accuracy_spec. Qed.
Print Assumptions C53_accuracy.
(** Precision, recall and F1 of an item, plain and weighted by the frequencies of the categories. *)
Theorem C53_predictions N cats probs rows pred : rect N (length cats) probs -> rect N (length cats) rows ->
  (forall n i p, at2 probs n i = Some p -> top p (pred n i)) ->
  exists ms, predictions cats probs (Wide (length cats) rows) = Ok ms /\ length ms = length cats /\
  forall i K, nth_error cats i = Some K -> (0 < K)%nat ->
    nth_error ms i = Some (ItemScores
      (plain_average K (precision_of N rows pred i)) (plain_average K (recall_of N rows pred i)) (plain_average K (f1_of N rows pred i))
      (weighted_average N rows i K (precision_of N rows pred i)) (weighted_average N rows i K (recall_of N rows pred i))
      (weighted_average N rows i K (f1_of N rows pred i))).
Proof. apply predictions_spec. Qed.
Print Assumptions C53_predictions.
(** All reported numbers lie between zero and one; the weighted recall of an item is its accuracy. *)
Theorem C53_unit_interval N cats probs rows ms : rect N (length cats) probs -> rect N (length cats) rows ->
  Forall (Forall (fun p : list R => p <> [])) probs ->
  (forall n i K, nth_error cats i = Some K -> seen rows n i = true -> exists k, (k < K)%nat /\ chose rows n i k = true) ->
  predictions cats probs (Wide (length cats) rows) = Ok ms ->
  exists acc, accuracy probs (Wide (length cats) rows) LItem = Ok (Vec acc) /\
  forall i K s, nth_error cats i = Some K -> (0 < K)%nat -> nth_error ms i = Some s ->
    0 <= it_precision s <= 1 /\ 0 <= it_recall s <= 1 /\ 0 <= it_f1 s <= 1 /\
    (forall x, it_wprecision s = Some x -> 0 <= x <= 1) /\ (forall x, it_wrecall s = Some x -> 0 <= x <= 1) /\
    (forall x, it_wf1 s = Some x -> 0 <= x <= 1) /\ nth_error acc i = Some (it_wrecall s) /\
    ((0 < answerers N rows i)%nat -> exists x, it_wrecall s = Some x).
Proof.
  intros HP HR NE HL E. destruct (accuracy_spec N _ probs rows _ HP HR (pick_top probs NE)) as (A1 & _).
  destruct (predictions_spec N cats probs rows _ HP HR (pick_top probs NE)) as (ms' & E' & L & H). assert (ms' = ms) by congruence. subst ms'.
  eexists. split; [exact A1|]. intros i K s Hi HK Hs. rewrite (H i K Hi HK) in Hs. set (pr := pick probs) in *.
  assert (Hs' : s = ItemScores (plain_average K (precision_of N rows pr i)) (plain_average K (recall_of N rows pr i)) (plain_average K (f1_of N rows pr i))
      (weighted_average N rows i K (precision_of N rows pr i)) (weighted_average N rows i K (recall_of N rows pr i)) (weighted_average N rows i K (f1_of N rows pr i))) by congruence.
  subst s. cbn [it_precision it_recall it_f1 it_wprecision it_wrecall it_wf1].
  assert (Li : (i < length cats)%nat) by (apply nth_error_Some; congruence).
  assert (LG : forall n, (n < N)%nat -> seen rows n i = true -> exists k, (k < K)%nat /\ chose rows n i k = true) by (intros n _; apply (HL n i K Hi)).
  split; [apply plain_unit; [exact HK|apply precision_unit]|]. split; [apply plain_unit; [exact HK|apply recall_unit]|].
  split; [apply plain_unit; [exact HK|apply f1_unit]|]. split; [intros x; apply weighted_unit; [exact LG|apply precision_unit]|].
  split; [intros x; apply weighted_unit; [exact LG|apply recall_unit]|]. split; [intros x; apply weighted_unit; [exact LG|apply f1_unit]|]. split.
  - rewrite nth_error_map, nth_error_seq by exact Li. cbn [option_map Nat.add]. f_equal. symmetry. apply weighted_recall. exact LG.
  - intros HA. unfold weighted_average. destruct (Nat.eqb_spec (answerers N rows i) 0); [lia|]. eexists. reflexivity.
Qed.
Print Assumptions C53_unit_interval.
(** An item whose answers are all predicted, with every category chosen by somebody, gets ones throughout. *)
Theorem C53_perfect N cats probs rows pred i K ms : rect N (length cats) probs -> rect N (length cats) rows ->
  (forall n i p, at2 probs n i = Some p -> top p (pred n i)) -> nth_error cats i = Some K -> (0 < K)%nat ->
  (forall n, seen rows n i = true -> chose rows n i (pred n i) = true) ->
  (forall k, (k < K)%nat -> (0 < given N rows i k)%nat) -> (forall n, seen rows n i = true -> exists k, (k < K)%nat /\ chose rows n i k = true) ->
  predictions cats probs (Wide (length cats) rows) = Ok ms ->
  nth_error ms i = Some (ItemScores 1 1 1 (Some 1) (Some 1) (Some 1)).
Proof.
  intros HP HR HT Hi HK Hp Hv HL E. destruct (predictions_spec N cats probs rows pred HP HR HT) as (ms' & E' & L & H). assert (ms' = ms) by congruence. subst ms'.
  rewrite (H i K Hi HK). f_equal.
  assert (PS := fun k (Hk : (k < K)%nat) => perfect_scores N rows pred i K (fun n _ => Hp n) Hv k Hk).
  assert (PA := fun f => perfect_averages N rows i K (fun n _ => HL n) Hv f HK).
  destruct (PA (precision_of N rows pred i)) as [-> ->]; [intros; now apply PS|]. destruct (PA (recall_of N rows pred i)) as [-> ->]; [intros; now apply PS|].
  destruct (PA (f1_of N rows pred i)) as [-> ->]; [intros; now apply PS|]. reflexivity.
Qed.
Print Assumptions C53_perfect.
(** Missing answers, and what the model says about them, do not matter. *)
Theorem C53_missing N cats probs probs' rows rows' lv :
  rect N (length cats) probs -> rect N (length cats) probs' -> rect N (length cats) rows -> rect N (length cats) rows' ->
  Forall (Forall (fun p : list R => p <> [])) probs -> Forall (Forall (fun p : list R => p <> [])) probs' -> Forall (fun K => (0 < K)%nat) cats ->
  same_observed probs probs' rows rows' ->
  accuracy probs (Wide (length cats) rows) lv = accuracy probs' (Wide (length cats) rows') lv /\
  predictions cats probs (Wide (length cats) rows) = predictions cats probs' (Wide (length cats) rows').
Proof. apply missing_ignored. Qed.
Print Assumptions C53_missing.
Example C53_nonvacuous :
  let probs := [[[1/4; 3/4]; [1/2; 1/3; 1/6]]; [[2/3; 1/3]; [1/5; 1/5; 3/5]]] in
  let rows := [[Some 1%Z; Some 2%Z]; [None; Some 2%Z]] in
  rect 2 2 probs /\ rect 2 2 rows /\ Forall (Forall (fun p : list R => p <> [])) probs /\ top [1/4; 3/4] 1 /\ top [1/2; 1/3; 1/6] 0 /\
  same_observed probs [[[1/4; 3/4]; [1/2; 1/3; 1/6]]; [[0; 1]; [1/5; 1/5; 3/5]]] rows [[Some 1%Z; Some 2%Z]; [Some (-1)%Z; Some 2%Z]].
Proof.
  cbv zeta. split; [split; [reflexivity|repeat constructor]|]. split; [split; [reflexivity|repeat constructor]|].
  split; [repeat constructor; discriminate|]. split; [|split].
  - exists (3/4). split; [reflexivity|]. intros [|[|q]] y H; [| |destruct q; discriminate H]; apply some_inj in H; subst y; split; try lra; intros; try lia; lra.
  - exists (1/2). split; [reflexivity|]. intros [|[|[|q]]] y H; [| | |destruct q; discriminate H]; apply some_inj in H; subst y; split; try lra; intros; lia.
  - intros n i. unfold seen. destruct n as [|[|n]]; [| |unfold at2; destruct n; cbn; (split; [reflexivity|discriminate])];
    (destruct i as [|[|i]]; [| |unfold at2; destruct i; cbn; (split; [reflexivity|discriminate])]); cbn; split; try reflexivity; try discriminate; auto.
Qed.

(** ** C54: residuals *)
Theorem C54_residuals N I M mc probs rows :
  (0 < M)%nat -> rect N I probs -> rect N I rows -> (forall n i p, at2 probs n i = Some p -> length p = M) ->
  (mc <> None -> forall n i z, at2 rows n i = Some (Some z) -> (-1 <= z < Z.of_nat M)%Z) ->
  exists r, rect N I r /\
    (forall n i p, (n < N)%nat -> (i < I)%nat -> at2 probs n i = Some p ->
       (at2 r n i = Some None <-> seen rows n i = false) /\
       forall z, seen rows n i = true -> at2 rows n i = Some (Some z) ->
         at2 r n i = Some (Some (match mc with None => IZR z - mean_score p | Some _ => 1 - nth (Z.to_nat z) p 0 end))) /\
    fst (residuals M mc probs (Wide I rows) AvOther) = Ok (Full r) /\
    (exists l, fst (residuals M mc probs (Wide I rows) AvItems) = Ok (Vec l) /\ length l = N /\
       forall n row, nth_error r n = Some row -> exists x, nth_error l n = Some x /\ mean_of (known row) x) /\
    (exists l, fst (residuals M mc probs (Wide I rows) AvRespondents) = Ok (Vec l) /\ length l = I /\
       forall i, (i < I)%nat -> exists x, nth_error l i = Some x /\ mean_of (known (column_of r i)) x) /\
    (exists x, fst (residuals M mc probs (Wide I rows) AvEverything) = Ok (One x) /\ mean_of (known (concat r)) x).
Proof.
  intros HM HP HR HL Hz. destruct (residuals_spec N I M mc probs rows HM HP HR HL Hz) as (r & Rr & Ra & Rc). exists r. split; [exact Rr|].
  destruct (average_spec N I r Rr) as ((l1 & A1 & L1 & V1) & (l2 & A2 & L2 & V2) & (x & A3 & V3) & A4).
  split; [|split; [now rewrite Ra, A4|split; [|split]]].
  - intros n i p Hn Hi Hp. assert (C : exists c, at2 rows n i = Some c).
    { exists (nth i (nth n rows []) None). destruct HR as [LN HF]. unfold at2. rewrite (nth_error_nth_lt rows n []) by lia. apply nth_error_nth_lt.
      rewrite Forall_forall in HF. rewrite (HF (nth n rows [])); [exact Hi|]. apply nth_In. lia. }
    destruct C as (c & C). pose proof (Rc n i c p C Hp) as V. unfold seen. rewrite C, V. unfold residual_value. destruct c as [z|].
    + destruct (Z.eqb_spec z (-1)) as [->|NZ]; cbn [negb].
      * split; [split; reflexivity|]. intros; discriminate.
      * split; [split; intros H; discriminate H|]. intros z' _ H. assert (z' = z) by congruence. subst z'. destruct mc; reflexivity.
    + split; [split; reflexivity|]. intros; discriminate.
  - exists l1. rewrite Ra, A1. auto.
  - exists l2. rewrite Ra, A2. auto.
  - exists x. rewrite Ra, A3. auto.
Qed.
Print Assumptions C54_residuals.
Example C54_nonvacuous :
  let probs := [[[1/4; 3/4]; [1/2; 1/2]]; [[2/3; 1/3]; [1; 0]]] in let rows := [[Some 1%Z; None]; [Some (-1)%Z; Some 0%Z]] in
  rect 2 2 probs /\ rect 2 2 rows /\ (forall n i p, at2 probs n i = Some p -> length p = 2%nat) /\
  (forall n i z, at2 rows n i = Some (Some z) -> (-1 <= z < 2)%Z).
Proof.
  cbv zeta. split; [split; [reflexivity|repeat constructor]|]. split; [split; [reflexivity|repeat constructor]|]. split.
  - intros n i p H. unfold at2 in H. destruct n as [|[|n]]; [| |destruct n; discriminate H]; (destruct i as [|[|i]]; [| |destruct i; discriminate H]); cbn in H; injection H as <-; reflexivity.
  - intros n i z H. unfold at2 in H. destruct n as [|[|n]]; [| |destruct n; discriminate H]; (destruct i as [|[|i]]; [| |destruct i; discriminate H]); cbn in H; try discriminate H; injection H as <-; lia.
Qed.

(** ** C75: the caller's data *)
(** What the caller's tensor holds afterwards: the answers and the missing cells are the same ones. *)
Theorem C75_answers_kept M mc probs I rows av :
  let after := w_rows (snd (residuals M mc probs (Wide I rows) av)) in
  (forall n i, seen after n i = seen rows n i) /\ (forall n i k, chose after n i k = chose rows n i k).
Proof.
  cbv zeta. rewrite residuals_data. cbn [w_rows]. split; [intros; apply nan_to_m1_seen|intros; apply nan_to_m1_chose].
Qed.
Print Assumptions C75_answers_kept.
(** ... but the tensor itself is unchanged only when it holds no NaN. *)
Theorem C75_data_unchanged_refuted M mc probs I rows av :
  (snd (residuals M mc probs (Wide I rows) av) = Wide I rows <-> forall r, In r rows -> ~ In None r) /\
  (forall n i, at2 rows n i = Some None -> at2 (w_rows (snd (residuals M mc probs (Wide I rows) av))) n i = Some (Some (-1)%Z)).
Proof.
  split; [apply residuals_data_iff|]. intros n i H. rewrite residuals_data. cbn [w_rows]. unfold at2 in *. rewrite nth_error_map.
  destruct (nth_error rows n) as [r|]; [|discriminate]. cbn [option_map]. rewrite nth_error_map, H. reflexivity.
Qed.
Print Assumptions C75_data_unchanged_refuted.
Example C75_nonvacuous : at2 [[Some 1%Z; None]] 0 1 = Some (@None Z) /\
  w_rows (snd (residuals 2 None [[[1/2; 1/2]; [1/2; 1/2]]] (Wide 2 [[Some 1%Z; None]]) AvOther)) = [[Some 1%Z; Some (-1)%Z]].
Proof. split; reflexivity. Qed.

(** ** C55: groups by ability *)
(** The slices of the group log-likelihood: all respondents, consecutive, the remainder spread over the first groups. *)
Theorem C55_slices {A} groups (l : list A) : (0 < groups)%nat ->
  concat (group_slices groups l) = l /\ length (group_slices groups l) = groups /\
  forall g G, nth_error (group_slices groups l) g = Some G ->
    length G = (length l / groups + (if (g <? length l mod groups)%nat then 1 else 0))%nat.
Proof.
  intros H. destruct (group_slices_spec groups l H) as [E1 E2]. split; [exact E1|]. split.
  - rewrite <- (map_length (@length A)), E2, map_length, seq_length. reflexivity.
  - intros g G HG. assert (X : nth_error (map (@length A) (group_slices groups l)) g = Some (length G)) by (rewrite nth_error_map, HG; reflexivity).
    rewrite E2, nth_error_map in X. destruct (nth_error (seq 0 groups) g) as [q|] eqn:Q; [|discriminate].
    assert (Lg : (g < groups)%nat). { assert (Z : (g < length (seq 0 groups))%nat) by (apply nth_error_Some; congruence). now rewrite seq_length in Z. }
    rewrite nth_error_seq in Q by exact Lg. cbn in Q. assert (q = g) by congruence. subst q. cbn [option_map] in X. unfold slice_size in X. congruence.
Qed.
Print Assumptions C55_slices.
(** The groups of latent_group_probabilities: respondents sorted by score, consecutive groups of equal size except the
    last, observed shares and mean model probabilities of each group's own members, mid points. *)
Theorem C55_group_probabilities iprob lv cats (scale : option (list (list R) -> list (list R))) thetas rows groups j :
  let scores := match scale with Some f => f thetas | None => thetas end in
  let score := fun n => nth j (nth n scores []) 0 in
  let N := length rows in
  length thetas = N -> length scores = N -> (0 < N)%nat -> (0 < groups)%nat -> (j < lv)%nat ->
  rect N (length cats) rows -> answers_below (list_max cats) rows ->
  exists order gs dp mp mid, latent_group_probabilities iprob lv cats scale thetas rows groups (S j) = Ok (dp, mp, mid) /\
    increasing_order score N order /\ cut_into order (ceil_div N groups) gs /\ ordered_groups score gs /\
    length gs = ceil_div N (ceil_div N groups) /\ (length gs <= groups)%nat /\
    length dp = length gs /\ length mp = length gs /\ length mid = length gs /\
    forall g G, nth_error gs g = Some G ->
      (forall i k, (i < length cats)%nat -> (k < list_max cats)%nat ->
         at3 dp g i k = Some (observed_share rows G i k) /\ at3 mp g i k = Some (Some (model_share iprob thetas G i k))) /\
      nth_error mid g = Some (group_mid scale score G).
Proof.
  intros scores score N HT HS HN Hg Hj HR HB. exists (argsort_r (column 0 j scores)), (chunk groups (argsort_r (column 0 j scores))).
  pose proof (groups_ok iprob lv cats scale thetas rows groups j HT HS HN Hg Hj HR HB) as E. fold scores in E. fold score in E.
  pose proof (gs_cut lv cats scale thetas rows groups j HT HS HN Hg Hj) as [C1 C2]. fold scores in C1, C2.
  pose proof (order_increasing lv cats scale thetas rows groups j HT HS HN Hg Hj) as Oi. fold scores in Oi. fold score in Oi.
  pose proof (order_sorted lv cats scale thetas rows groups j HT HS HN Hg Hj) as S. fold scores in S. fold score in S.
  eexists _, _, _. split; [exact E|]. split; [exact Oi|]. split; [exact C1|]. split; [apply sorted_groups; destruct C1 as [-> _]; exact S|].
  split; [exact C2|]. split; [rewrite C2; apply P_CV.ceil_div_le; assumption|]. rewrite !map_length. split; [reflexivity|]. split; [reflexivity|]. split; [reflexivity|].
  intros g G HG. split.
  - intros i k Hi Hk. split.
    + unfold group_answers. apply (at3_map (fun G i k => observed_share rows G i k)); assumption.
    + unfold group_model. apply (at3_map (fun G i k => Some (model_share iprob thetas G i k))); assumption.
  - rewrite nth_error_map, HG. reflexivity.
Qed.
Print Assumptions C55_group_probabilities.
(** Fewer groups than requested may come back: five respondents in four groups are cut into three. *)
Theorem C55_number_of_groups_refuted : exists iprob cats thetas rows dp mp mid,
  length thetas = 5%nat /\ latent_group_probabilities iprob 1 cats None thetas rows 4 1 = Ok (dp, mp, mid) /\ length dp = 3%nat.
Proof.
  set (rows := repeat [Some 0%Z] 5). set (thetas := repeat [0] 5).
  destruct (C55_group_probabilities (fun _ => [[1; 0]]) 1 [2%nat] None thetas rows 4 0) as (order & gs & dp & mp & mid & E & _ & _ & _ & L & _ & Ld & _);
    try reflexivity; try (cbn; lia).
  - split; [reflexivity|]. repeat constructor.
  - intros n i H. exists O. split; [cbn; lia|]. unfold seen, chose, at2 in *. do 5 (destruct n as [|n]; [destruct i as [|i]; [reflexivity|destruct i; discriminate H]|]). destruct n; discriminate H.
  - exists (fun _ => [[1; 0]]), [2%nat], thetas, rows, dp, mp, mid. split; [reflexivity|]. split; [exact E|]. rewrite Ld, L. reflexivity.
Qed.
Print Assumptions C55_number_of_groups_refuted.
Example C55_nonvacuous :
  let rows := [[Some 1%Z; None]; [Some 0%Z; Some 2%Z]; [Some (-1)%Z; Some 0%Z]] in
  length [[3/10; 1]; [-1; 2]; [3/10; 0]] = length rows /\ rect (length rows) (length [2; 3]%nat) rows /\ answers_below (list_max [2; 3]%nat) rows.
Proof.
  cbv zeta. split; [reflexivity|]. split; [split; [reflexivity|repeat constructor]|].
  intros n i H. unfold seen, chose, at2 in *. destruct n as [|[|[|n]]]; [| | |destruct n; discriminate H];
    (destruct i as [|[|i]]; [| |destruct i; discriminate H]); cbn in H; try discriminate H.
  - exists 1%nat. cbn. split; [lia|reflexivity].
  - exists 0%nat. cbn. split; [lia|reflexivity].
  - exists 2%nat. cbn. split; [lia|reflexivity].
  - exists 0%nat. cbn. split; [lia|reflexivity].
Qed.

(** ** C56: log-likelihood of groups *)
(** Without missing answers: the mean log-likelihood of the members of each group. *)
Theorem C56_complete_data m p thetas rows groups j : has_probabilities m p -> (0 < em_items m)%nat ->
  Forall (fun t => length t = em_lv m) thetas -> length thetas = length rows -> legal_data (em_cats m) rows -> (0 < length rows)%nat ->
  complete (length rows) (em_items m) rows -> (0 < groups)%nat -> (j < em_lv m)%nat ->
  let score := fun n => nth j (nth n thetas []) 0 in
  exists order gs out, group_fit_log_likelihood m thetas (Wide (em_items m) rows) groups (S j) = Ok out /\
    increasing_order score (length rows) order /\
    splits_into order (map (fun g => length rows / groups + (if (g <? length rows mod groups)%nat then 1 else 0))%nat (seq 0 groups)) gs /\
    ordered_groups score gs /\ length out = length gs /\
    forall g G x, nth_error gs g = Some G -> nth_error out g = Some x -> group_loglik p thetas rows G x.
Proof. apply group_loglik_spec. Qed.
Print Assumptions C56_complete_data.
(** With a missing answer anywhere, the call fails or some group gets NaN. *)
Theorem C56_missing_data_refuted m thetas data groups latent_variable out : marks_missing m -> (0 < groups)%nat ->
  Forall (fun r => length r = w_cols data) (w_rows data) -> (exists r c, In r (w_rows data) /\ In c r /\ (c = None \/ c = Some (-1)%Z)) ->
  group_fit_log_likelihood m thetas data groups latent_variable = Ok out -> In None out.
Proof.
  intros Hm Hg HR (r & c & Hr & Hc & H). apply missing_gives_nan; try assumption. exists r, c. split; [exact Hr|]. split; [exact Hc|]. destruct H as [->| ->]; reflexivity.
Qed.
Print Assumptions C56_missing_data_refuted.
(** ... whichever of the library's model classes it is. *)
Theorem C56_missing_data_models_refuted : (forall m p, library_model m p -> marks_missing m) /\
  (forall nanl lv cats fwd, marks_missing (of_sub (table_sub nanl lv cats fwd))) /\
  (forall lv subs, Forall (fun s => (exists nanl lv cats fwd, s = logit_sub nanl lv cats fwd) \/ (exists nanl m, s = grm_sub nanl m) \/
      (exists nanl m, s = thpl_sub nanl m) \/ (exists nanl lv cats fwd, s = table_sub nanl lv cats fwd)) subs -> marks_missing (of_mix lv subs)).
Proof.
  split; [|split].
  - intros m p H. destruct H; apply of_sub_marks; first [apply grm_marks | apply thpl_marks | apply logit_marks].
  - intros. apply of_sub_marks, table_marks.
  - intros lv subs H. apply mix_marks. eapply Forall_impl; [|exact H]. intros s [(?&?&?&?&->)|[(?&?&->)|[(?&?&->)|(?&?&?&?&->)]]];
      [apply logit_marks|apply grm_marks|apply thpl_marks|apply table_marks].
Qed.
Print Assumptions C56_missing_data_models_refuted.
Example C56_nonvacuous : exists m p, library_model m p /\ has_probabilities m p /\ (0 < em_items m)%nat /\
  legal_data (em_cats m) [[Some 1%Z]; [Some 0%Z]] /\ complete 2 (em_items m) [[Some 1%Z]; [Some 0%Z]].
Proof.
  set (md := {| opl_items := 1; opl_b := [0] |}). assert (L : library_model (of_sub (opl_sub 0 md)) (opl_p md)) by (apply lib_opl; [reflexivity|cbn; lia]).
  exists (of_sub (opl_sub 0 md)), (opl_p md). split; [exact L|]. split; [now apply library_has_probabilities|]. split; [cbn; lia|]. split.
  - apply Forall_cons; [|apply Forall_cons; [|apply Forall_nil]]; (split; [reflexivity|]); intros [|i] c H; try (destruct i; discriminate H); apply some_inj in H; subst c; right; right.
    + exists 1%nat. cbn. split; [reflexivity|lia].
    + exists 0%nat. cbn. split; [reflexivity|lia].
  - intros n i Hn Hi. cbn in Hi. destruct n as [|[|n]], i as [|i]; try lia; reflexivity.
Qed.

(** ** C77: log-likelihood of the responses *)
Section C77.
  Variables (m : emodel) (p : list R -> nat -> nat -> R) (thetas : list (list R)) (rows : list (list cell)).
  Hypothesis (Hm : has_probabilities m p) (HF : Forall (fun t => length t = em_lv m) thetas) (Hl : length thetas = length rows)
    (Hd : legal_data (em_cats m) rows) (HN : (0 < length rows)%nat).
  Notation ll n i := (cell_loglik p thetas rows n i).
  Notation total l := (Some (Fin (rsum l))).
  Definition mean_fl (l : list R) : fl := match l with [] => None | _ => Some (Fin (rsum l / INR (length l))) end.
  Lemma nanmean_fl_cells {A} (s : A -> bool) (v : A -> R) l :
    fnanmean (map (fun a => if s a then Some (Fin (v a)) else None) l) = mean_fl (map v (filter s l)).
  Proof. rewrite fnanmean_cells. unfold mean_fl. now destruct (map v (filter s l)). Qed.
  Lemma c77_sum lv : log_likelihood m thetas (Wide (em_items m) rows) "sum"%string lv =
    Ok match lv with
       | LItem => FVec (map (fun i => total (map (fun n => ll n i) (filter (fun n => seen rows n i) (everyone (length rows))))) (seq 0 (em_items m)))
       | LRespondent => FVec (map (fun n => total (map (fun i => ll n i) (filter (fun i => seen rows n i) (seq 0 (em_items m))))) (everyone (length rows)))
       | LAll => FOne (total (map (fun c => ll (fst c) (snd c)) (filter (fun c => seen rows (fst c) (snd c)) (all_cells (length rows) (em_items m)))))
       end.
  Proof.
    rewrite (loglik_rows m p Hm thetas rows _ lv HF Hl Hd HN). cbv zeta. change (substring_of "sum" "mean") with false. change (String.eqb "sum" "sum") with true. cbv iota.
    rewrite f_level. f_equal. destruct lv; f_equal; first [apply map_ext; intros|idtac].
    - apply (fnansum_cells (fun n => seen rows n a) (fun n => ll n a)).
    - apply (fnansum_cells (fun i => seen rows a i) (fun i => ll a i)).
    - apply (fnansum_cells (fun c => seen rows (fst c) (snd c)) (fun c => ll (fst c) (snd c))).
  Qed.
  Lemma c77_mean reduction lv : substring_of reduction "mean" = true -> log_likelihood m thetas (Wide (em_items m) rows) reduction lv =
    Ok match lv with
       | LItem => FVec (map (fun i => mean_fl (map (fun n => ll n i) (filter (fun n => seen rows n i) (everyone (length rows))))) (seq 0 (em_items m)))
       | LRespondent => FVec (map (fun n => mean_fl (map (fun i => ll n i) (filter (fun i => seen rows n i) (seq 0 (em_items m))))) (everyone (length rows)))
       | LAll => FOne (mean_fl (map (fun c => ll (fst c) (snd c)) (filter (fun c => seen rows (fst c) (snd c)) (all_cells (length rows) (em_items m)))))
       end.
  Proof.
    intros H. rewrite (loglik_rows m p Hm thetas rows _ lv HF Hl Hd HN). cbv zeta. rewrite H.
    rewrite f_level. f_equal. destruct lv; f_equal; first [apply map_ext; intros|idtac].
    - apply (nanmean_fl_cells (fun n => seen rows n a) (fun n => ll n a)).
    - apply (nanmean_fl_cells (fun i => seen rows a i) (fun i => ll a i)).
    - apply (nanmean_fl_cells (fun c => seen rows (fst c) (snd c)) (fun c => ll (fst c) (snd c))).
  Qed.
  Lemma c77_full reduction lv : substring_of reduction "mean" = false -> reduction <> "sum"%string ->
    exists c, log_likelihood m thetas (Wide (em_items m) rows) reduction lv = Ok (FFull c) /\ rect (length rows) (em_items m) c /\
      forall n i, (n < length rows)%nat -> (i < em_items m)%nat -> at2 c n i = Some (if seen rows n i then Some (Fin (ll n i)) else None).
  Proof.
    intros H1 H2. rewrite (loglik_rows m p Hm thetas rows _ lv HF Hl Hd HN). cbv zeta. rewrite H1. destruct (String.eqb_spec reduction "sum") as [E|_]; [contradiction|].
    eexists. split; [reflexivity|]. split; [apply grid_rect|]. intros n i Hn Hi. now rewrite at2_grid.
  Qed.
End C77.
(** Sums over the observed answers: per item, per respondent, in total; an impossible answer counts -30. *)
Theorem C77_sum m p thetas rows lv : has_probabilities m p -> Forall (fun t => length t = em_lv m) thetas -> length thetas = length rows ->
  legal_data (em_cats m) rows -> (0 < length rows)%nat ->
  log_likelihood m thetas (Wide (em_items m) rows) "sum"%string lv =
    Ok match lv with
       | LItem => FVec (map (fun i => Some (Fin (rsum (map (fun n => cell_loglik p thetas rows n i) (filter (fun n => seen rows n i) (everyone (length rows))))))) (seq 0 (em_items m)))
       | LRespondent => FVec (map (fun n => Some (Fin (rsum (map (fun i => cell_loglik p thetas rows n i) (filter (fun i => seen rows n i) (seq 0 (em_items m))))))) (everyone (length rows)))
       | LAll => FOne (Some (Fin (rsum (map (fun c => cell_loglik p thetas rows (fst c) (snd c)) (filter (fun c => seen rows (fst c) (snd c)) (all_cells (length rows) (em_items m)))))))
       end.
Proof. intros. now apply c77_sum. Qed.
Print Assumptions C77_sum.
(** Means over the observed answers, NaN without any. *)
Theorem C77_mean m p thetas rows lv : has_probabilities m p -> Forall (fun t => length t = em_lv m) thetas -> length thetas = length rows ->
  legal_data (em_cats m) rows -> (0 < length rows)%nat ->
  let mean := fun l : list R => match l with [] => None | _ => Some (Fin (rsum l / INR (length l))) end in
  log_likelihood m thetas (Wide (em_items m) rows) "mean"%string lv =
    Ok match lv with
       | LItem => FVec (map (fun i => mean (map (fun n => cell_loglik p thetas rows n i) (filter (fun n => seen rows n i) (everyone (length rows))))) (seq 0 (em_items m)))
       | LRespondent => FVec (map (fun n => mean (map (fun i => cell_loglik p thetas rows n i) (filter (fun i => seen rows n i) (seq 0 (em_items m))))) (everyone (length rows)))
       | LAll => FOne (mean (map (fun c => cell_loglik p thetas rows (fst c) (snd c)) (filter (fun c => seen rows (fst c) (snd c)) (all_cells (length rows) (em_items m)))))
       end.
Proof. intros. now apply c77_mean. Qed.
Print Assumptions C77_mean.
(** One value per cell, NaN for a missing answer. *)
Theorem C77_none m p thetas rows lv : has_probabilities m p -> Forall (fun t => length t = em_lv m) thetas -> length thetas = length rows ->
  legal_data (em_cats m) rows -> (0 < length rows)%nat ->
  exists c, log_likelihood m thetas (Wide (em_items m) rows) "none"%string lv = Ok (FFull c) /\ rect (length rows) (em_items m) c /\
    forall n i, (n < length rows)%nat -> (i < em_items m)%nat ->
      at2 c n i = Some (if seen rows n i then Some (Fin (cell_loglik p thetas rows n i)) else None).
Proof. intros. apply c77_full; try assumption; [reflexivity|discriminate]. Qed.
Print Assumptions C77_none.
(** Other reductions are not refused: substrings of "mean" (also the empty one) average, anything else returns all cells. *)
Theorem C77_unknown_reduction_refuted m p thetas rows lv : has_probabilities m p -> Forall (fun t => length t = em_lv m) thetas ->
  length thetas = length rows -> legal_data (em_cats m) rows -> (0 < length rows)%nat ->
  (forall reduction, exists out, log_likelihood m thetas (Wide (em_items m) rows) reduction lv = Ok out) /\
  log_likelihood m thetas (Wide (em_items m) rows) ""%string lv = log_likelihood m thetas (Wide (em_items m) rows) "mean"%string lv /\
  log_likelihood m thetas (Wide (em_items m) rows) "ea"%string lv = log_likelihood m thetas (Wide (em_items m) rows) "mean"%string lv /\
  log_likelihood m thetas (Wide (em_items m) rows) "Sum"%string lv = log_likelihood m thetas (Wide (em_items m) rows) "none"%string lv.
Proof.
  intros Hm HF Hl Hd HN. split.
  - intros reduction. rewrite (loglik_rows m p Hm thetas rows _ lv HF Hl Hd HN). cbv zeta. destruct (substring_of _ _); [eauto|]. destruct (String.eqb _ _); eauto.
  - split; [|split]; rewrite !(loglik_rows m p Hm thetas rows _ lv HF Hl Hd HN); reflexivity.
Qed.
Print Assumptions C77_unknown_reduction_refuted.
Example C77_nonvacuous : exists m p, has_probabilities m p /\ Forall (fun t => length t = em_lv m) [[0]; [1]] /\
  legal_data (em_cats m) [[Some 1%Z]; [None]].
Proof.
  set (md := {| opl_items := 1; opl_b := [0] |}). assert (L : library_model (of_sub (opl_sub 0 md)) (opl_p md)) by (apply lib_opl; [reflexivity|cbn; lia]).
  exists (of_sub (opl_sub 0 md)), (opl_p md). split; [now apply library_has_probabilities|]. split; [repeat constructor|].
  apply Forall_cons; [|apply Forall_cons; [|apply Forall_nil]]; (split; [reflexivity|]); intros [|i] c H; try (destruct i; discriminate H); apply some_inj in H; subst c.
  - right; right. exists 1%nat. cbn. split; [reflexivity|lia].
  - now left.
Qed.

(** ** C76: residuals of groups *)
(** Raw residuals: observed share minus mean probability, NaN beyond the categories of the item; they balance out over
    the categories. *)
Theorem C76_raw iprob lv cats (scale : option (list (list R) -> list (list R))) thetas train data groups j :
  let rows := match data with Some d => d | None => train end in
  let scores := match scale with Some f => f thetas | None => thetas end in
  let score := fun n => nth j (nth n scores []) 0 in
  let N := length rows in
  length thetas = N -> length scores = N -> (0 < N)%nat -> (0 < groups)%nat -> (j < lv)%nat ->
  rect N (length cats) rows -> answers_below (list_max cats) rows ->
  exists order gs out mid, group_fit_residuals iprob lv cats scale thetas train data groups (S j) false = Ok (out, mid) /\
    increasing_order score N order /\ cut_into order (ceil_div N groups) gs /\ length out = length gs /\
    forall g G i K, nth_error gs g = Some G -> nth_error cats i = Some K ->
      (forall k, (k < list_max cats)%nat -> at3 out g i k =
         Some (if (K <=? k)%nat then None else option_map (fun d => Fin (d - model_share iprob thetas G i k)) (observed_share rows G i k))) /\
      ((0 < tally (fun n => seen rows n i) G)%nat ->
       (forall n, In n G -> seen rows n i = true -> exists k, (k < K)%nat /\ chose rows n i k = true) ->
       (forall n, In n G -> (forall k, (k < K)%nat -> 0 <= nth k (nth i (iprob (nth n thetas [])) []) 0) /\
                            sumn K (fun k => nth k (nth i (iprob (nth n thetas [])) []) 0) = 1) ->
       exists r, (forall k, (k < K)%nat -> at3 out g i k = Some (Some (Fin (r k)))) /\ sumn K r = 0 /\ forall k, (k < K)%nat -> -1 <= r k <= 1).
Proof.
  intros rows scores score N HT HS HN Hg Hj HR HB. exists (argsort_r (column 0 j scores)), (chunk groups (argsort_r (column 0 j scores))).
  pose proof (raw_ok iprob lv cats scale thetas rows groups j HT HS HN Hg Hj HR HB train data eq_refl) as E. fold scores in E. fold score in E.
  pose proof (gs_cut lv cats scale thetas rows groups j HT HS HN Hg Hj) as [C1 C2]. fold scores in C1, C2.
  pose proof (order_increasing lv cats scale thetas rows groups j HT HS HN Hg Hj) as Oi. fold scores in Oi. fold score in Oi.
  eexists _, _. split; [exact E|]. split; [exact Oi|]. split; [exact C1|]. split; [now rewrite map_length|].
  intros g G i K HG Hi. assert (Li : (i < length cats)%nat) by (apply nth_error_Some; congruence).
  assert (EK : nth i cats O = K) by (apply nth_error_nth; exact Hi).
  assert (V : forall k, (k < list_max cats)%nat -> at3 (map (fun G => map (fun i => map (fun k => raw_entry iprob cats thetas rows G i k) (seq 0 (list_max cats))) (seq 0 (length cats))) (chunk groups (argsort_r (column 0 j scores)))) g i k =
     Some (if (K <=? k)%nat then None else option_map (fun d => Fin (d - model_share iprob thetas G i k)) (observed_share rows G i k))).
  { intros k Hk. rewrite (at3_map (fun G i k => raw_entry iprob cats thetas rows G i k) _ _ _ _ G) by assumption. unfold raw_entry. now rewrite EK. }
  split; [exact V|]. intros HTa HK HP. destruct C1 as [_ C1]. destruct (C1 g G HG) as [NE _].
  destruct (raw_balance iprob thetas rows G i K NE HTa HK HP) as (r & R1 & R2 & R3). exists r. split; [|split; assumption].
  intros k Hk. rewrite V.
  - rewrite R1. destruct (Nat.leb_spec K k); [lia|reflexivity].
  - assert (M : (K <= list_max cats)%nat). { pose proof (proj1 (list_max_le cats (list_max cats)) (le_n _)) as F. rewrite Forall_forall in F. apply F. apply (nth_error_In _ _ Hi). } lia.
Qed.
Print Assumptions C76_raw.
(** Standardised residuals: divided by the standard error sqrt(p (1 - p) / n), n the size of the group. *)
Theorem C76_standardised iprob lv cats (scale : option (list (list R) -> list (list R))) thetas train rows groups j :
  let scores := match scale with Some f => f thetas | None => thetas end in
  let score := fun n => nth j (nth n scores []) 0 in
  let N := length rows in
  length thetas = N -> length scores = N -> (0 < N)%nat -> (0 < groups)%nat -> (j < lv)%nat ->
  rect N (length cats) rows -> answers_below (list_max cats) rows ->
  exists order gs out mid, group_fit_residuals iprob lv cats scale thetas train (Some rows) groups (S j) true = Ok (out, mid) /\
    increasing_order score N order /\ cut_into order (ceil_div N groups) gs /\ length out = length gs /\
    forall g G i k, nth_error gs g = Some G -> (i < length cats)%nat -> (k < list_max cats)%nat ->
      (forall d, let q := model_share iprob thetas G i k in observed_share rows G i k = Some d -> 0 < q < 1 ->
         at3 out g i k = Some (Some (Fin ((d - q) / sqrt (q * (1 - q) / INR (length G)))))) /\
      (observed_share rows G i k = None \/ (observed_share rows G i k = Some 0 /\ model_share iprob thetas G i k = 0) -> at3 out g i k = Some None).
Proof.
  intros scores score N HT HS HN Hg Hj HR HB. exists (argsort_r (column 0 j scores)), (chunk groups (argsort_r (column 0 j scores))).
  pose proof (std_ok iprob lv cats scale thetas rows groups j HT HS HN Hg Hj HR HB train) as E. fold scores in E. fold score in E.
  pose proof (gs_cut lv cats scale thetas rows groups j HT HS HN Hg Hj) as [C1 C2]. fold scores in C1, C2.
  pose proof (order_increasing lv cats scale thetas rows groups j HT HS HN Hg Hj) as Oi. fold scores in Oi. fold score in Oi.
  eexists _, _. split; [exact E|]. split; [exact Oi|]. split; [exact C1|]. split; [now rewrite map_length|].
  intros g G i k HG Hi Hk. destruct C1 as [_ C1]. destruct (C1 g G HG) as [NE _]. assert (PG : (0 < length G)%nat) by (destruct G; [congruence|cbn; lia]).
  rewrite (at3_map (fun G i k => std_residual (length G) (observed_share rows G i k) (Some (model_share iprob thetas G i k))) _ _ _ _ G) by assumption. split.
  - intros d q D Q. rewrite D. f_equal. now apply std_residual_value.
  - intros [D|[D Q]]; rewrite D; [reflexivity|]. rewrite Q, std_residual_sure by (auto). destruct (Req_EM_T (0 - 0) 0); [reflexivity|lra].
Qed.
Print Assumptions C76_standardised.
(** The default call (training data, standardised) never succeeds. *)
Theorem C76_default_call_refuted iprob lv cats scale thetas train groups latent_variable out :
  group_fit_residuals iprob lv cats scale thetas train None groups latent_variable true <> Ok out.
Proof. apply default_call_error. Qed.
Print Assumptions C76_default_call_refuted.
(** The standard error counts respondents who did not answer: of four respondents one answered (category 1, probability
    1/2), and the residual is 2, although it is one standard error of a single answer. *)
Theorem C76_missing_counted_refuted : exists out mid,
  group_fit_residuals (fun _ => [[1/2; 1/2]]) 1 [2%nat] None (repeat [0] 4) [] (Some ([Some 1%Z] :: repeat [None] 3)) 1 1 true = Ok (out, mid) /\
  at3 out 0 0 1 = Some (Some (Fin 2)) /\ (1 - 1/2) / sqrt (1/2 * (1 - 1/2) / INR 1) = 1.
Proof.
  set (rows := [Some 1%Z] :: repeat [None] 3). set (ip := fun _ : list R => [[1/2; 1/2]]). set (th := repeat [0] 4).
  destruct (C76_standardised ip 1 [2%nat] None th [] rows 1 0) as (order & gs & out & mid & E & (ND & IN & _) & [C0 CG] & L & V); try reflexivity; try (cbn; lia).
  - split; [reflexivity|repeat constructor].
  - intros n i H. unfold seen, chose, at2 in *. destruct n as [|[|[|[|n]]]]; [| | | |destruct n; discriminate H]; (destruct i as [|i]; [|destruct i; discriminate H]); cbn in H; try discriminate H.
    exists 1%nat. split; [cbn; lia|reflexivity].
  - exists out, mid. split; [exact E|].
    assert (S4 : sqrt (1/2 * (1 - 1/2) / INR 4) = 1/4). { replace (INR 4) with 4 by (cbn; lra). replace (1/2 * (1 - 1/2) / 4) with ((1/4) * (1/4)) by lra. apply sqrt_square. lra. }
    assert (S1 : sqrt (1/2 * (1 - 1/2) / INR 1) = 1/2). { replace (INR 1) with 1 by reflexivity. replace (1/2 * (1 - 1/2) / 1) with ((1/2) * (1/2)) by lra. apply sqrt_square. lra. }
    split; [|rewrite S1; lra].
    assert (P : Permutation.Permutation order (seq 0 4)).
    { apply Permutation.NoDup_Permutation; [exact ND|apply seq_NoDup|]. intros n. rewrite IN. rewrite in_seq. cbn. lia. }
    assert (LO : length order = 4%nat) by (rewrite (Permutation.Permutation_length P); reflexivity).
    assert (G0 : exists G, nth_error gs 0 = Some G). { destruct gs as [|G gs']; [cbn in C0; subst order; discriminate LO|]. exists G. reflexivity. }
    destruct G0 as (G & G0). destruct (CG O G G0) as [NE LG]. rewrite LO in LG. change (Nat.min (ceil_div (length rows) 1) (4 - 0 * ceil_div (length rows) 1)) with 4%nat in LG.
    assert (EG : G = order).
    { destruct gs as [|G' gs']; [discriminate G0|]. cbn in G0. assert (G' = G) by congruence. subst G'. cbn [concat] in C0.
      assert (Z : length (concat gs') = 0%nat). { assert (Y : length (G ++ concat gs') = 4%nat) by (rewrite C0; exact LO). rewrite app_length in Y. lia. }
      destruct (concat gs'); [|discriminate Z]. now rewrite app_nil_r in C0. }
    assert (TP : forall f : nat -> bool, tally f G = tally f (seq 0 4)).
    { intros f. rewrite EG. unfold tally. apply P_Grid2.filter_perm_length. exact P. }
    destruct (V O G O 1%nat G0 ltac:(cbn; lia) ltac:(cbn; lia)) as [V1 _].
    assert (Q : model_share ip th G 0 1 = 1/2).
    { unfold model_share. rewrite (map_ext _ (fun _ => 1/2)) by reflexivity. rewrite LG.
      replace (rsum (map (fun _ : nat => 1/2) G)) with 2; [cbn; lra|]. destruct G as [|a [|b [|c [|d [|e G']]]]]; try discriminate LG. cbn. lra. }
    rewrite (V1 1).
    + rewrite Q, LG, S4. f_equal. f_equal. f_equal. lra.
    + unfold observed_share. rewrite !TP. unfold share. cbn. f_equal. lra.
    + rewrite Q. lra.
Qed.
Print Assumptions C76_missing_counted_refuted.
Example C76_nonvacuous : answers_below 2 [[Some 1%Z]; [None]; [Some 0%Z]] /\ (0 < tally (fun n => seen [[Some 1%Z]; [None]; [Some 0%Z]] n 0) [0; 1]%nat)%nat /\
  observed_share [[Some 1%Z]; [None]; [Some 0%Z]] [0; 2]%nat 0 1 = Some (1 / 2) /\ 0 < model_share (fun t => [[1/3; 2/3]]) [[0]; [1]; [2]] [0; 2]%nat 0 1 < 1.
Proof.
  split; [|split; [cbn; lia|split]].
  - intros n i H. unfold seen, chose, at2 in *. destruct n as [|[|[|n]]]; [| | |destruct n; discriminate H]; (destruct i as [|i]; [|destruct i; discriminate H]); cbn in H; try discriminate H.
    + exists 1%nat. split; [cbn; lia|reflexivity].
    + exists 0%nat. split; [cbn; lia|reflexivity].
  - unfold observed_share, share. cbn. f_equal.
  - unfold model_share. cbn. lra.
Qed.

(** ** C78: infit and outfit *)
Theorem C78_infit_outfit N I M mc probs rows :
  (0 < M)%nat -> rect N I probs -> rect N I rows -> (forall n i p, at2 probs n i = Some p -> length p = M) ->
  (forall n i, seen rows n i = true -> exists k, chose rows n i k = true) ->
  (forall key, mc = Some key -> (2 <= M)%nat /\ length key = I /\ (0 < I)%nat /\ (forall z, In z key -> (0 <= z < Z.of_nat M)%Z) /\
     forall n i p, at2 probs n i = Some p -> rsum p = 1) ->
  let err := cell_error mc rows probs in let spread := cell_spread mc probs in
  (exists infit outfit, infit_outfit M mc probs (Wide I rows) (Some LItem) = Ok (infit, outfit) /\ length infit = I /\ length outfit = I /\
    forall i, (i < I)%nat -> let o := filter (fun n => seen rows n i) (everyone N) in
      (o = [] \/ rsum (map (fun n => spread n i) o) <> 0 -> nth_error infit i = Some (infit_of (fun n => err n i) (fun n => spread n i) o)) /\
      ((forall n, In n o -> spread n i <> 0 \/ err n i = 0) -> nth_error outfit i = Some (outfit_of (fun n => err n i) (fun n => spread n i) o))) /\
  (exists infit outfit, infit_outfit M mc probs (Wide I rows) (Some LRespondent) = Ok (infit, outfit) /\ length infit = N /\ length outfit = N /\
    forall n, (n < N)%nat -> let o := filter (fun i => seen rows n i) (seq 0 I) in
      (o = [] \/ rsum (map (fun i => spread n i) o) <> 0 -> nth_error infit n = Some (infit_of (fun i => err n i) (fun i => spread n i) o)) /\
      ((forall i, In i o -> spread n i <> 0 \/ err n i = 0) -> nth_error outfit n = Some (outfit_of (fun i => err n i) (fun i => spread n i) o))).
Proof.
  intros HM HP HR HL HC Hmc. rewrite (rect_grid [] N I probs HP) in *. set (pf := fun n i => nth i (nth n probs []) []) in *. clearbody pf.
  rewrite (rect_grid None N I rows HR) in *. set (cf := fun n i => nth i (nth n rows []) None) in *. clearbody cf. cbv zeta.
  assert (HL' : forall n i, (n < N)%nat -> (i < I)%nat -> length (pf n i) = M) by (intros n i Hn Hi; apply (HL n i); now apply at2_grid).
  assert (SM : forall n i, (n < N)%nat -> (i < I)%nat -> negb (missing_cell (cf n i)) = seen (grid N I cf) n i).
  { intros n i Hn Hi. rewrite (seen_grid N I cf n i) by assumption. reflexivity. }
  assert (Hleg : forall n i, (n < N)%nat -> (i < I)%nat -> missing_cell (cf n i) = true \/ exists k, cf n i = Some (Z.of_nat k)).
  { intros n i Hn Hi. destruct (missing_cell (cf n i)) eqn:E; [now left|right]. destruct (HC n i) as (k & K).
    - rewrite <- SM by assumption. now rewrite E.
    - exists k. unfold chose in K. rewrite at2_grid in K by assumption. destruct (cf n i) as [z|]; [|discriminate]. apply Z.eqb_eq in K. now subst. }
  assert (Hmc' : forall key, mc = Some key -> (2 <= M)%nat /\ length key = I /\ (0 < I)%nat /\ (forall z, In z key -> (0 <= z < Z.of_nat M)%Z) /\
    forall n i, (n < N)%nat -> (i < I)%nat -> rsum (pf n i) = 1).
  { intros key Hk. destruct (Hmc key Hk) as (A & B & C & D & F). split; [exact A|]. split; [exact B|]. split; [exact C|]. split; [exact D|]. intros n i Hn Hi. apply (F n i). now apply at2_grid. }
  pose proof (fun lv => infit_grid N I M pf cf mc HM HL' Hleg Hmc' lv) as G. split.
  - rewrite (G LItem). cbv zeta. eexists _, _. split; [reflexivity|]. rewrite !map_length, seq_length. split; [reflexivity|]. split; [reflexivity|].
    intros i Hi. rewrite !nth_error_map, nth_error_seq by exact Hi. cbn [option_map Nat.add].
    assert (F : filter (fun n => seen (grid N I cf) n i) (everyone N) = filter (fun n => negb (missing_cell (cf n i))) (seq 0 N)).
    { apply filter_ext_in. intros n Hn. apply in_seq in Hn. symmetry. apply SM; lia. }
    rewrite F. destruct (fit_line_spec (fun n => cell_error mc (grid N I cf) (grid N I pf) n i) (fun n => cell_spread mc (grid N I pf) n i) (fun n => missing_cell (cf n i)) (seq 0 N)) as [F1 F2].
    split; intros H; f_equal; [now apply F1|now apply F2].
  - rewrite (G LRespondent). cbv zeta. eexists _, _. split; [reflexivity|]. rewrite !map_length, seq_length. split; [reflexivity|]. split; [reflexivity|].
    intros n Hn. rewrite !nth_error_map, nth_error_seq by exact Hn. cbn [option_map Nat.add].
    assert (F : filter (fun i => seen (grid N I cf) n i) (seq 0 I) = filter (fun i => negb (missing_cell (cf n i))) (seq 0 I)).
    { apply filter_ext_in. intros i Hi. apply in_seq in Hi. symmetry. apply SM; lia. }
    rewrite F. destruct (fit_line_spec (fun i => cell_error mc (grid N I cf) (grid N I pf) n i) (fun i => cell_spread mc (grid N I pf) n i) (fun i => missing_cell (cf n i)) (seq 0 I)) as [F1 F2].
    split; intros H; f_equal; [now apply F1|now apply F2].
Qed.
Print Assumptions C78_infit_outfit.
(** The variance of a cell is the expected squared residual under the model. *)
Theorem C78_expected_square mc probs n i p : at2 probs n i = Some p -> 
  cell_spread mc probs n i = sumn (length p) (fun k => nth k p 0 * cell_error mc [repeat None i ++ [Some (Z.of_nat k)]] [repeat [] i ++ [p]] 0 i).
Proof.
  intros H. unfold cell_spread. rewrite H. unfold score_spread. apply sumn_ext. intros k _. unfold cell_error, at2. cbn [app repeat nth_error].
  rewrite !nth_error_app2 by (rewrite repeat_length; lia). rewrite !repeat_length, Nat.sub_diag. cbn [nth_error]. now rewrite Nat2Z.id.
Qed.
Print Assumptions C78_expected_square.
(** Any other level is refused. *)
Theorem C78_level M mc probs data : infit_outfit M mc probs data None = Err ValueError /\ infit_outfit M mc probs data (Some LAll) = Err ValueError.
Proof. split; reflexivity. Qed.
Print Assumptions C78_level.
Example C78_nonvacuous :
  let probs := [[[1/4; 3/4]; [1/2; 1/2]]; [[2/3; 1/3]; [1/5; 4/5]]] in let rows := [[Some 1%Z; None]; [Some (-1)%Z; Some 0%Z]] in
  rect 2 2 probs /\ rect 2 2 rows /\ (forall n i, seen rows n i = true -> exists k, chose rows n i k = true) /\
  (forall n i p, at2 probs n i = Some p -> rsum p = 1) /\ cell_spread (Some [1; 0]%Z) probs 0 0 = 3/16.
Proof.
  cbv zeta. split; [split; [reflexivity|repeat constructor]|]. split; [split; [reflexivity|repeat constructor]|]. split; [|split].
  - intros n i H. unfold seen, chose, at2 in *. destruct n as [|[|n]]; [| |destruct n; discriminate H]; (destruct i as [|[|i]]; [| |destruct i; discriminate H]); cbn in H; try discriminate H; [exists 1%nat|exists 0%nat]; reflexivity.
  - intros n i p H. unfold at2 in H. destruct n as [|[|n]]; [| |destruct n; discriminate H]; (destruct i as [|[|i]]; [| |destruct i; discriminate H]); cbn in H; injection H as <-; cbn; lra.
  - unfold cell_spread, score_spread, average_score. cbn. unfold score_of. cbn. lra.
Qed.
