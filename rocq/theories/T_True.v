(** Property C120: what estimation aims at when the answers come from a model of the library. *)
From Verif Require Import Base BaseFacts RBase RFacts M_Data M_Logit M_Lik M_Est M_Quad M_Opt M_Jml P_Twin6 S_Twin P_Logit P_Logit2 P_Logit3 P_Est2 P_Item1 S_Logit S_Lik S_Est S_Opt S_Max S_Item S_Ex S_True P_True1 P_True2 P_True3 P_True4.
Import List.
Local Open Scope R_scope.

(** Marginal maximum likelihood. Answers of any pattern of missing ones are drawn from a model with scores distributed as
    a quadrature rule says: the probabilities of the possible tables add up to 1, and on average over the tables no model
    with any rule of the same total weight has a lower loss than the true one; the loss is as low only for models that give every row of answers
    the same probability. *)
Theorem C120_mml : forall m p points weights m' p' points' weights' seen,
  library_model m p -> library_model m' p' -> em_cats m' = em_cats m -> rule (em_lv m) points weights -> rule (em_lv m') points' weights' -> rsum weights' = rsum weights ->
  Forall (fun s => length s = length (em_cats m)) seen ->
  let chance := fun (_ : nat) row => marginal_likelihood p points weights row / rsum weights in
  let loss m points weights data := mml_loss m points (map (fun w => Some (Fin (ln w))) weights) (Wide (length (em_cats m)) data) in
  let average := average_loss (em_cats m) seen chance in
  rsum (map (table_probability chance) (possible_data (em_cats m) seen)) = 1 /\
  always_finite (em_cats m) seen (loss m points weights) /\ always_finite (em_cats m) seen (loss m' points' weights') /\
  average (loss m points weights) <= average (loss m' points' weights') /\
  (average (loss m' points' weights') = average (loss m points weights) <->
   forall s row, In s seen -> In row (possible_rows (em_cats m) s) -> marginal_likelihood p' points' weights' row = marginal_likelihood p points weights row).
Proof.
  intros m p points weights m' p' points' weights' seen Hm Hm' EC HR HR' EW HS chance loss average. split.
  - apply (average_additive (em_cats m) seen chance (fun _ _ => 0)). intros r Hr. apply share_total; auto. rewrite Forall_forall in HS. now apply HS, nth_In.
  - split; [exact (proj1 (mml_average m p points weights m p points weights seen Hm Hm eq_refl HR HR eq_refl HS))|]. exact (mml_average m p points weights m' p' points' weights' seen Hm Hm' EC HR HR' EW HS).
Qed.
Print Assumptions C120_mml.

(** Every rule that fitting uses is of this kind, the default as well as Gauss-Hermite quadrature. *)
Theorem C120_rules : forall hermgauss use_gauss_hermite lv requested cov r,
  proper_hermgauss hermgauss -> requested <> Some 0%nat -> mml_rule hermgauss use_gauss_hermite lv requested cov = Ok r ->
  exists weights, snd r = map (fun w => Some (Fin (ln w))) weights /\ rule lv (fst r) weights.
Proof. intros hermgauss gh lv requested cov r HG HQ H. destruct (rule_ready hermgauss gh lv requested cov r HG HQ H) as (ws & E & L1 & L2 & L3 & L4 & _). exists ws. split; [exact E|]. now repeat split. Qed.
Print Assumptions C120_rules.

(** One-parameter model: then the intercepts of all items that somebody answers are the true ones. *)
Theorem C120_rasch : forall nanl items b b' points weights seen,
  (0 < items)%nat -> length b = items -> length b' = items -> rule 1 points weights -> Forall (fun s => length s = items) seen ->
  let F := opl_family nanl items in
  let average v := average_loss (f_cats F) seen (fun _ row => marginal_likelihood (f_p F b) points weights row / rsum weights)
    (fun data => mml_loss (f_model F v) points (map (fun w => Some (Fin (ln w))) weights) (Wide items data)) in
  average b <= average b' /\ (average b' = average b <-> forall s i, In s seen -> nth i s false = true -> nth i b' 0 = nth i b 0).
Proof.
  intros nanl items b b' points weights seen HI Lb Lb' HR HS F average.
  assert (Hm : library_model (f_model F b) (f_p F b)) by (constructor; [exact Lb|exact HI]). assert (Hm' : library_model (f_model F b') (f_p F b')) by (constructor; [exact Lb'|exact HI]).
  pose proof (mml_average (f_model F b) (f_p F b) points weights (f_model F b') (f_p F b') points weights seen Hm Hm' eq_refl HR HR eq_refl) as Q.
  change (em_cats (f_model F b)) with (repeat 2%nat items) in Q. change (em_cats (f_model F b')) with (repeat 2%nat items) in Q. rewrite repeat_length in Q. destruct (Q HS) as (_ & Q1 & Q2). split; [exact Q1|]. rewrite Forall_forall in HS.
  etransitivity; [exact Q2|]. split.
  - intros H s i Hs. apply (proj1 (opl_rows nanl items b b' points weights s Lb Lb' HI HR (HS s Hs))). intros row Hrow. exact (H s row Hs Hrow).
  - intros H s row Hs Hrow. apply (proj2 (opl_rows nanl items b b' points weights s Lb Lb' HI HR (HS s Hs))); [|exact Hrow]. intros i Hi. exact (H s i Hs Hi).
Qed.
Print Assumptions C120_rasch.

(** Data in which every possible row occurs in proportion to its probability: marginal maximum likelihood finds nothing
    better than the truth, and nothing as good that gives the rows other probabilities. *)
Theorem C120_exact : forall m p points weights m' p' points' weights' s data,
  library_model m p -> library_model m' p' -> em_cats m' = em_cats m -> rule (em_lv m) points weights -> rule (em_lv m') points' weights' -> rsum weights' = rsum weights ->
  length s = length (em_cats m) -> data <> [] -> Forall (fun row => In row (possible_rows (em_cats m) s)) data ->
  (forall row, In row (possible_rows (em_cats m) s) -> INR (times data row) = INR (length data) * (marginal_likelihood p points weights row / rsum weights)) ->
  let loss m points weights := mml_loss m points (map (fun w => Some (Fin (ln w))) weights) (Wide (length (em_cats m)) data) in
  exists x x', loss m points weights = Ok (Some (Fin x)) /\ loss m' points' weights' = Ok (Some (Fin x')) /\ x <= x' /\
    (x' = x <-> forall row, In row (possible_rows (em_cats m) s) -> marginal_likelihood p' points' weights' row = marginal_likelihood p points weights row).
Proof. exact mml_exact. Qed.
Print Assumptions C120_exact.

(** Joint maximum likelihood on average: no model and scores have a lower loss than the true ones, and only those that
    give every answer the same probability have as low a one. *)
Theorem C120_jml : forall m p thetas m' p' thetas' seen,
  library_model m p -> library_model m' p' -> em_cats m' = em_cats m -> length thetas = length seen -> length thetas' = length seen ->
  Forall (fun t => length t = em_lv m) thetas -> Forall (fun t => length t = em_lv m') thetas' -> Forall (fun s => length s = length (em_cats m)) seen ->
  let chance := fun r row => likelihood p (nth r thetas []) row in
  let loss m thetas data := jml_loss m (Wide (length (em_cats m)) data) thetas in
  let average := average_loss (em_cats m) seen chance in
  rsum (map (table_probability chance) (possible_data (em_cats m) seen)) = 1 /\
  always_finite (em_cats m) seen (loss m thetas) /\ always_finite (em_cats m) seen (loss m' thetas') /\
  average (loss m thetas) <= average (loss m' thetas') /\
  (average (loss m' thetas') = average (loss m thetas) <->
   forall r i k, (r < length seen)%nat -> nth i (nth r seen []) false = true -> (k < nth i (em_cats m) O)%nat -> p' (nth r thetas' []) i k = p (nth r thetas []) i k).
Proof.
  intros m p thetas m' p' thetas' seen Hm Hm' EC HL HL' HT HT' HS chance loss average. split.
  - apply (average_additive (em_cats m) seen chance (fun _ _ => 0)). intros r Hr. apply (likelihood_total m p (nth r seen []) (nth r thetas [])); auto. rewrite Forall_forall in HS. now apply HS, nth_In.
  - split; [exact (proj1 (jml_average m p thetas m p thetas seen Hm Hm eq_refl HL HL HT HT HS))|]. exact (jml_average m p thetas m' p' thetas' seen Hm Hm' EC HL HL' HT HT' HS).
Qed.
Print Assumptions C120_jml.

(** But scores and intercepts estimated together from data in exact proportions miss the truth. With two items of a
    one-parameter model, and the respondents who have one of them right in the proportions the true intercepts imply at
    every score, best estimates exist and the difference of the estimated intercepts is always twice the true one. *)
Theorem C120_joint_refuted : forall nanl truth data,
  length truth = 2%nat -> Forall (fun row => row = first_right \/ row = second_right) data ->
  (0 < times data first_right)%nat -> (0 < times data second_right)%nat ->
  (forall x, INR (times data first_right) * likelihood (f_p (opl_family nanl 2) truth) [x] second_right = INR (times data second_right) * likelihood (f_p (opl_family nanl 2) truth) [x] first_right) ->
  (exists scores b, length scores = length data /\ length b = 2%nat /\ lowest_joint nanl 2 data scores b) /\
  forall scores b, length scores = length data -> length b = 2%nat -> lowest_joint nanl 2 data scores b ->
    nth 0 b 0 - nth 1 b 0 = 2 * (nth 0 truth 0 - nth 1 truth 0).
Proof.
  intros nanl truth data Lt HF H1 H2 HX. split; [now apply joint_two|]. intros scores b HL Lb HJ. rewrite (joint_doubles nanl data scores b HF H1 H2 HL Lb HJ). f_equal.
  specialize (HX 0). change (f_p (opl_family nanl 2) truth) with (opl_p (opl_of 2 truth)) in HX. rewrite (odds_two truth 0 Lt) in HX. apply lt_INR in H1, H2. cbn [INR] in H1, H2.
  assert (LP : 0 < likelihood (opl_p (opl_of 2 truth)) [0] second_right) by (apply (library_likelihood (of_sub (opl_sub nanl (opl_of 2 truth))) (opl_p (opl_of 2 truth))); [apply lib_opl; [exact Lt|exact Nat.lt_0_2]|apply (Forall_inv (legal_two [second_right] ltac:(repeat constructor; now right)))]).
  replace (INR (times data first_right) / INR (times data second_right)) with (exp (nth 0 truth 0 - nth 1 truth 0)); [apply ln_exp|]. apply (Rmult_eq_reg_r (INR (times data second_right) * likelihood (opl_p (opl_of 2 truth)) [0] second_right)); [|apply Rgt_not_eq, Rmult_lt_0_compat; lra].
  transitivity (INR (times data second_right) * (exp (nth 0 truth 0 - nth 1 truth 0) * likelihood (opl_p (opl_of 2 truth)) [0] second_right)); [ring|]. rewrite <- HX. field. lra.
Qed.
Print Assumptions C120_joint_refuted.

Lemma logistic_ln3 : logistic (ln 3) = 3 / 4.
Proof. rewrite logistic_exp, exp_ln by lra. lra. Qed.

(** One item that is right with probability 3/4, four respondents, three of whom have it right. *)
Example C120_nonvacuous :
  let F := opl_family 0 1 in let data := [[Some 1%Z]; [Some 0%Z]; [Some 1%Z]; [Some 1%Z]] in
  library_model (f_model F [ln 3]) (f_p F [ln 3]) /\ rule 1 [[0]] [1] /\ (rule 1 [[1]; [-1]] [1 / 2; 1 / 2] /\ rsum [1 / 2; 1 / 2] = rsum [1]) /\
  possible_rows (f_cats F) [true] = [[Some 0%Z]; [Some 1%Z]] /\ Forall (fun row => In row (possible_rows (f_cats F) [true])) data /\
  (forall row, In row (possible_rows (f_cats F) [true]) -> INR (times data row) = INR (length data) * (marginal_likelihood (f_p F [ln 3]) [[0]] [1] row / rsum [1])) /\
  length (possible_data (f_cats F) [[true]; [false]; [true]]) = 4%nat /\
  marginal_likelihood (f_p F [ln 3]) [[0]] [1] [Some 1%Z] <> marginal_likelihood (f_p F [0]) [[0]] [1] [Some 1%Z].
Proof.
  assert (L0 : logistic (0 + ln 3) = 3 / 4) by (rewrite Rplus_0_l; apply logistic_ln3).
  assert (M1 : marginal_likelihood (f_p (opl_family 0 1) [ln 3]) [[0]] [1] [Some 1%Z] = 3 / 4) by (unfold marginal_likelihood, likelihood; cbn -[logistic]; unfold opl_p; cbn -[logistic]; change (Pos.to_nat 1 =? 1)%nat with true; cbv iota; rewrite L0; lra).
  assert (M0 : marginal_likelihood (f_p (opl_family 0 1) [ln 3]) [[0]] [1] [Some 0%Z] = 1 / 4) by (unfold marginal_likelihood, likelihood; cbn -[logistic]; unfold opl_p; cbn -[logistic]; rewrite L0; lra).
  split; [constructor; [reflexivity|cbn; lia]|]. split; [repeat split; [discriminate|repeat constructor|repeat constructor; lra]|]. split; [repeat split; [discriminate|repeat constructor|repeat constructor; lra|cbn; lra]|].
  split; [reflexivity|]. split; [repeat (constructor; [cbn; auto|]); constructor|]. split; [|split; [reflexivity|]].
  - intros row [<-|[<-|[]]]; [change (Some (Z.of_nat 0)) with (Some 0%Z); rewrite M0|change (Some (Z.of_nat 1)) with (Some 1%Z); rewrite M1]; unfold times; cbn; lra.
  - rewrite M1. unfold marginal_likelihood, likelihood; cbn -[logistic]; unfold opl_p; cbn -[logistic]. change (Pos.to_nat 1 =? 1)%nat with true. cbv iota. rewrite Rplus_0_l. unfold logistic. rewrite Ropp_0, exp_0. lra.
Qed.
(** Three respondents with the first item right for one with the second right: intercepts that differ by [ln 3]. *)
Example C120_joint_nonvacuous :
  let data := [first_right; first_right; second_right; first_right] in let truth := [ln 3; 0] in
  Forall (fun row => row = first_right \/ row = second_right) data /\ times data first_right = 3%nat /\ times data second_right = 1%nat /\
  (forall x, INR (times data first_right) * likelihood (f_p (opl_family 0 2) truth) [x] second_right = INR (times data second_right) * likelihood (f_p (opl_family 0 2) truth) [x] first_right) /\
  2 * (nth 0 truth 0 - nth 1 truth 0) <> nth 0 truth 0 - nth 1 truth 0.
Proof.
  split; [repeat (constructor; [auto|]); constructor|]. split; [reflexivity|]. split; [reflexivity|]. split.
  - intro x. change (f_p (opl_family 0 2) [ln 3; 0]) with (opl_p (opl_of 2 [ln 3; 0])). rewrite (odds_two [ln 3; 0] x eq_refl). cbn [nth]. rewrite Rminus_0_r, exp_ln by lra. change (times _ first_right) with 3%nat. change (times _ second_right) with 1%nat. cbn [INR]. ring.
  - cbn [nth]. assert (0 < ln 3) by (rewrite <- ln_1; apply ln_increasing; lra). lra.
Qed.
