(** Likelihood ratios: sufficient statistics and monotone ratios. *)
From Verif Require Import Base BaseFacts RBase RFacts M_Data M_Logit M_Lik M_Est P_Logit P_Logit2 P_Est1 P_Est2 P_Opt2 P_Opt3 P_Max1 P_Max3 S_Logit S_Lik S_Est S_Suff.
Import List.
Local Open Scope R_scope.

(** ** Products over a row *)
Lemma likelihood_cons p t c row : likelihood p t (c :: row) = (match answer c with None => 1 | Some k => p t O k end) * likelihood (fun t i k => p t (S i) k) t row.
Proof. unfold likelihood. rewrite mapi_cons. cbn [rprod]. reflexivity. Qed.
Lemma total_cons w c row d : total w (c :: row) d = (match answer c with None => 0 | Some k => w O k d end) + total (fun i k d => w (S i) k d) row d.
Proof. unfold total. rewrite mapi_cons. cbn [rsum]. reflexivity. Qed.

(** ** Sufficient statistics *)
Definition exponential (lv : nat) (cats : list nat) (p : list R -> nat -> nat -> R) (w : nat -> nat -> nat -> R) (b : nat -> nat -> R) (Z : list R -> nat -> R) : Prop :=
  forall t i k, length t = lv -> (k < nth i cats O)%nat -> 0 < Z t i /\ p t i k = exp (sumn lv (fun d => w i k d * nth d t 0) + b i k) / Z t i.

Lemma ratio_row lv : forall cats p w b Z row row', exponential lv cats p w b Z -> length row = length cats -> length row' = length cats ->
  (forall i k, answer (nth i row None) = Some k -> (k < nth i cats O)%nat) -> (forall i k, answer (nth i row' None) = Some k -> (k < nth i cats O)%nat) ->
  same_items row row' ->
  exists c, 0 < c /\ forall t, length t = lv ->
    likelihood p t row' = c * exp (sumn lv (fun d => (total w row' d - total w row d) * nth d t 0)) * likelihood p t row.
Proof.
  induction cats as [|K cats IH]; intros p w b Z [|x row] [|x' row'] HE L1 L2 HL HL' HS; try discriminate.
  - exists 1. split; [lra|]. intros t Lt. unfold likelihood, total. cbn [mapi mapi_from rprod rsum]. rewrite (sumn_ext lv _ (fun _ => 0)) by (intros; ring). rewrite sumn_0, exp_0. ring.
  - destruct (IH (fun t i k => p t (S i) k) (fun i k d => w (S i) k d) (fun i k => b (S i) k) (fun t i => Z t (S i)) row row') as (c & Hc & E).
    { intros t i k Lt Hk. exact (HE t (S i) k Lt Hk). }
    { cbn [length] in L1. lia. } { cbn [length] in L2. lia. }
    { intros i k H. exact (HL (S i) k H). } { intros i k H. exact (HL' (S i) k H). } { intro i. exact (HS (S i)). }
    pose proof (HL 0%nat) as H0. pose proof (HL' 0%nat) as H0'. pose proof (HS 0%nat) as HS0. cbn [nth] in H0, H0', HS0.
    destruct (answer x) as [k|] eqn:Ex; destruct (answer x') as [k'|] eqn:Ex'; try (destruct HS0 as [A B]; solve [discriminate (A eq_refl)|discriminate (B eq_refl)]).
    + exists (exp (b O k' - b O k) * c). split; [apply Rmult_lt_0_compat; [apply exp_pos|exact Hc]|]. intros t Lt. rewrite !likelihood_cons, Ex, Ex', (E t Lt).
      destruct (HE t O k Lt (H0 k eq_refl)) as [HZ ->]. destruct (HE t O k' Lt (H0' k' eq_refl)) as [_ ->].
      set (S1 := sumn lv (fun d => w O k d * nth d t 0)). set (S1' := sumn lv (fun d => w O k' d * nth d t 0)).
      replace (sumn lv (fun d => (total w (x' :: row') d - total w (x :: row) d) * nth d t 0)) with (S1' - S1 + sumn lv (fun d => (total (fun i k d => w (S i) k d) row' d - total (fun i k d => w (S i) k d) row d) * nth d t 0)).
      2:{ unfold S1, S1'. rewrite <- sumn_minus, <- sumn_plus. apply sumn_ext. intros d _. rewrite !total_cons, Ex, Ex'. ring. }
      replace (S1' + b O k') with ((b O k' - b O k) + (S1' - S1) + (S1 + b O k)) by ring. rewrite !exp_plus. field. lra.
    + exists c. split; [exact Hc|]. intros t Lt. rewrite !likelihood_cons, Ex, Ex', (E t Lt).
      replace (sumn lv (fun d => (total w (x' :: row') d - total w (x :: row) d) * nth d t 0)) with (sumn lv (fun d => (total (fun i k d => w (S i) k d) row' d - total (fun i k d => w (S i) k d) row d) * nth d t 0)); [ring|].
      apply sumn_ext. intros d _. rewrite !total_cons, Ex, Ex'. ring.
Qed.

Lemma two_exponential z k : (k < 2)%nat -> (if (k =? 1)%nat then logistic z else 1 - logistic z) = exp (INR k * z) / (1 + exp z).
Proof.
  intro Hk. pose proof (exp_pos z). destruct k as [|[|k]]; [| |lia]; cbn [Nat.eqb INR].
  - rewrite logistic_compl, Rmult_0_l, exp_0. unfold Rdiv. ring.
  - rewrite logistic_exp, Rmult_1_l. reflexivity.
Qed.
Lemma weights_library m p w : weights_of m p w -> library_model m p.
Proof. intros [nanl o Ho Hi|nanl o Ho Hi|nanl o Ho Hi|nanl o Ho Hi]; now constructor. Qed.
Lemma weights_exponential m p w : weights_of m p w -> exists b Z, exponential (em_lv m) (em_cats m) p w b Z.
Proof.
  intros [nanl o Ho Hi|nanl o Ho Hi|nanl o Ho Hi|nanl o Ho Hi].
  - exists (fun i k => INR k * nth i (opl_b o) 0), (fun t i => 1 + exp (nth 0 t 0 + nth i (opl_b o) 0)). intros t i k Lt Hk.
    cbn [of_sub opl_sub logit_sub em_cats sb_cats em_lv sb_lv] in *. pose proof (exp_pos (nth 0 t 0 + nth i (opl_b o) 0)). split; [lra|]. rewrite (nth_repeat_two _ _ _ Hk) in Hk. unfold opl_p. cbv zeta. rewrite two_exponential by exact Hk. f_equal. f_equal. cbn [sumn]. ring.
  - exists (fun i k => INR k * nth i (tpl_b o) 0), (fun t i => 1 + exp (predictor (tpl_lv o) (slope (tpl_free o) (tpl_w o) i) t + nth i (tpl_b o) 0)). intros t i k Lt Hk.
    cbn [of_sub tpl_sub logit_sub em_cats sb_cats em_lv sb_lv] in *. pose proof (exp_pos (predictor (tpl_lv o) (slope (tpl_free o) (tpl_w o) i) t + nth i (tpl_b o) 0)). split; [lra|]. rewrite (nth_repeat_two _ _ _ Hk) in Hk. unfold tpl_p. cbv zeta. rewrite two_exponential by exact Hk. f_equal. f_equal. unfold predictor. rewrite Rmult_plus_distr_l, <- sumn_scal. f_equal. apply sumn_ext. intros; ring.
  - exists (fun i k => intercept (p_cats o) (p_b o) i k), (fun t i => sumn (nth i (p_cats o) O) (fun j => exp (INR j * predictor (p_lv o) (slope (p_free o) (p_w o) i) t + intercept (p_cats o) (p_b o) i j))). intros t i k Lt Hk.
    change (em_cats (of_sub (gpc_sub nanl o))) with (p_cats o) in *. change (em_lv (of_sub (gpc_sub nanl o))) with (p_lv o) in *. split; [apply sumn_pos; [lia|intros; apply exp_pos]|]. unfold gpc_p, category_probability. f_equal. f_equal. f_equal. unfold predictor. rewrite <- sumn_scal. apply sumn_ext. intros; ring.
  - exists (fun i k => nrm_intercept o i k), (fun t i => sumn (nth i (nrm_cats o) O) (fun j => exp (predictor (nrm_lv o) (nrm_slope o i j) t + nrm_intercept o i j))). intros t i k Lt Hk.
    change (em_cats (of_sub (nrm_sub nanl o))) with (nrm_cats o) in *. change (em_lv (of_sub (nrm_sub nanl o))) with (nrm_lv o) in *. split; [apply sumn_pos; [lia|intros; apply exp_pos]|]. unfold nrm_p, category_probability. reflexivity.
Qed.
Lemma legal_at cats row i k : legal_row cats row -> answer (nth i row None) = Some k -> (k < nth i cats O)%nat.
Proof.
  intros [L H] E. destruct (nth_error row i) as [c|] eqn:Ec; [|apply nth_error_None in Ec; rewrite nth_overflow in E by lia; discriminate].
  rewrite (nth_error_nth _ _ None Ec) in E. destruct (H i c Ec) as [-> |[-> |(j & -> & Hj)]]; try discriminate. cbn [answer] in E. destruct (Z.eqb_spec (Z.of_nat j) (-1)); [lia|]. rewrite Nat2Z.id in E. injection E as <-. exact Hj.
Qed.
Lemma weights_ratio m p w row row' : weights_of m p w -> legal_row (em_cats m) row -> legal_row (em_cats m) row' -> same_items row row' ->
  exists c, 0 < c /\ forall t, length t = em_lv m ->
    likelihood p t row' = c * exp (sumn (em_lv m) (fun d => (total w row' d - total w row d) * nth d t 0)) * likelihood p t row.
Proof.
  intros Hw HL HL' HS. destruct (weights_exponential m p w Hw) as (b & Z & HE). apply (ratio_row (em_lv m) (em_cats m) p w b Z); [exact HE|apply HL|apply HL'|intros i k; now apply legal_at|intros i k; now apply legal_at|exact HS].
Qed.

(** ** Monotone ratios *)
Definition ordered_item (K : nat) (q : nat -> R -> R) : Prop :=
  (forall k x, (k < K)%nat -> 0 < q k x) /\ (forall x, sumn K (fun k => q k x) = 1) /\
  forall k k' x y, (k < k')%nat -> (k' < K)%nat -> x < y -> q k' x * q k y < q k x * q k' y.
Lemma ordered_top K q x y : ordered_item K q -> (1 <= K)%nat -> x < y -> q (K - 1)%nat x <= q (K - 1)%nat y /\ ((2 <= K)%nat -> q (K - 1)%nat x < q (K - 1)%nat y).
Proof.
  intros (HP & HS & HO) HK Hxy.
  assert (E1 : sumn K (fun k => q (K - 1)%nat x * q k y) = q (K - 1)%nat x) by (rewrite sumn_scal, HS; ring).
  assert (E2 : sumn K (fun k => q k x * q (K - 1)%nat y) = q (K - 1)%nat y) by (rewrite (sumn_ext K _ (fun k => q (K - 1)%nat y * q k x)) by (intros; ring); rewrite sumn_scal, HS; ring).
  assert (HH : forall k, (k < K)%nat -> q (K - 1)%nat x * q k y <= q k x * q (K - 1)%nat y).
  { intros k Hk. destruct (Nat.eq_dec k (K - 1)) as [-> |Hne]; [lra|]. left. apply HO; [lia|lia|exact Hxy]. }
  rewrite <- E1, <- E2. split.
  - rewrite E1, E2. rewrite <- E1, <- E2. apply sumn_le. exact HH.
  - intro H2. rewrite E1, E2, <- E1, <- E2. apply sumn_lt; [exact HH|]. exists 0%nat. split; [lia|]. apply HO; [lia|lia|exact Hxy].
Qed.
Lemma ordered_bottom K q x y : ordered_item K q -> (1 <= K)%nat -> x < y -> q O y <= q O x /\ ((2 <= K)%nat -> q O y < q O x).
Proof.
  intros (HP & HS & HO) HK Hxy.
  assert (E1 : sumn K (fun k => q k x * q O y) = q O y) by (rewrite (sumn_ext K _ (fun k => q O y * q k x)) by (intros; ring); rewrite sumn_scal, HS; ring).
  assert (E2 : sumn K (fun k => q O x * q k y) = q O x) by (rewrite sumn_scal, HS; ring).
  assert (HH : forall k, (k < K)%nat -> q k x * q O y <= q O x * q k y).
  { intros k Hk. destruct (Nat.eq_dec k 0) as [-> |Hne]; [lra|]. left. apply HO; [lia|lia|exact Hxy]. }
  split.
  - rewrite <- E1, <- E2. apply sumn_le. exact HH.
  - intro H2. rewrite <- E1, <- E2. apply sumn_lt; [exact HH|]. exists 1%nat. split; [lia|]. apply HO; [lia|lia|exact Hxy].
Qed.
Definition cell_q (q : nat -> R -> R) (a : option nat) (x : R) : R := match a with None => 1 | Some k => q k x end.
Lemma no_worse_ratio K q a a' x y : ordered_item K q -> (1 <= K)%nat -> (forall k, a = Some k -> (k < K)%nat) -> no_worse K a a' -> x < y ->
  0 < cell_q q a x /\ 0 < cell_q q a' x /\ 0 < cell_q q a y /\ 0 < cell_q q a' y /\
  cell_q q a' x * cell_q q a y <= cell_q q a x * cell_q q a' y /\ ((2 <= K)%nat -> a <> a' -> cell_q q a' x * cell_q q a y < cell_q q a x * cell_q q a' y).
Proof.
  intros HQ HK HA HN Hxy. pose proof HQ as (HP & _ & HO). pose proof (ordered_top K q x y HQ HK Hxy) as [T1 T2]. pose proof (ordered_bottom K q x y HQ HK Hxy) as [B1 B2].
  assert (P0 : forall z, 0 < q O z) by (intro; apply HP; lia). assert (PT : forall z, 0 < q (K - 1)%nat z) by (intro; apply HP; lia).
  inversion HN as [b|k k' H1 H2| |]; subst; cbn [cell_q].
  - assert (PA : forall z, 0 < cell_q q a' z) by (intro z; destruct a' as [k|]; cbn [cell_q]; [apply HP; now apply HA|lra]). repeat split; try apply PA; [lra|intros _ H; congruence].
  - repeat split; try (apply HP; lia); [left; now apply HO|intros; now apply HO].
  - repeat split; try lra; try apply PT. intros H _. specialize (T2 H). lra.
  - repeat split; try lra; try apply P0. intros H _. specialize (B2 H). lra.
Qed.
Lemma ratio_monotone x y : x < y -> forall cats p row row', (forall i, (i < length cats)%nat -> (1 <= nth i cats O)%nat /\ ordered_item (nth i cats O) (fun k x => p [x] i k)) ->
  length row = length cats -> length row' = length cats -> (forall i k, answer (nth i row None) = Some k -> (k < nth i cats O)%nat) -> all_no_worse cats row row' ->
  0 < likelihood p [x] row /\ 0 < likelihood p [x] row' /\ 0 < likelihood p [y] row /\ 0 < likelihood p [y] row' /\
  likelihood p [x] row' * likelihood p [y] row <= likelihood p [x] row * likelihood p [y] row' /\
  (some_different cats row row' -> likelihood p [x] row' * likelihood p [y] row < likelihood p [x] row * likelihood p [y] row').
Proof.
  intro Hxy. induction cats as [|K cats IH]; intros p [|c row] [|c' row'] HI L1 L2 HA HN; try discriminate.
  - unfold likelihood. cbn [mapi mapi_from rprod]. repeat split; try lra. intros (i & Hi & _). cbn [length] in Hi. lia.
  - destruct (IH (fun t i k => p t (S i) k) row row') as (P1 & P2 & P3 & P4 & W & ST).
    { intros i Hi. apply (HI (S i)). cbn [length]. lia. } { cbn [length] in L1. lia. } { cbn [length] in L2. lia. } { intros i k. exact (HA (S i) k). } { intros i Hi. apply (HN (S i)). cbn [length]. lia. }
    destruct (HI 0%nat ltac:(cbn [length]; lia)) as [HK HQ]. cbn [nth] in HK, HQ.
    destruct (no_worse_ratio K (fun k x => p [x] 0%nat k) (answer c) (answer c') x y HQ HK (HA 0%nat) (HN 0%nat ltac:(cbn [length]; lia)) Hxy) as (C1 & C2 & C3 & C4 & CW & CS).
    rewrite !likelihood_cons. unfold cell_q in *. 
    set (u := likelihood (fun t i k => p t (S i) k) [x] row) in *. set (u' := likelihood (fun t i k => p t (S i) k) [x] row') in *. set (v := likelihood (fun t i k => p t (S i) k) [y] row) in *. set (v' := likelihood (fun t i k => p t (S i) k) [y] row') in *.
    set (A := match answer c with Some k => p [x] 0%nat k | None => 1 end) in *. set (A' := match answer c' with Some k => p [x] 0%nat k | None => 1 end) in *. set (B := match answer c with Some k => p [y] 0%nat k | None => 1 end) in *. set (B' := match answer c' with Some k => p [y] 0%nat k | None => 1 end) in *.
    replace (A' * u' * (B * v)) with ((A' * B) * (u' * v)) by ring. replace (A * u * (B' * v')) with ((A * B') * (u * v')) by ring.
    assert (0 < A' * B) by now apply Rmult_lt_0_compat. assert (0 < u' * v) by now apply Rmult_lt_0_compat.
    repeat split; try (now apply Rmult_lt_0_compat); [apply Rmult_le_compat; lra|].
    intros (i & Hi & H2 & Hd). destruct i as [|i].
    + cbn [nth] in H2, Hd. specialize (CS H2 Hd). apply (Rlt_le_trans _ ((A * B') * (u' * v))); [now apply Rmult_lt_compat_r|apply Rmult_le_compat_l; lra].
    + assert (some_different cats row row') as SD by (exists i; cbn [length] in Hi; repeat split; [lia|exact H2|exact Hd]). specialize (ST SD). apply (Rlt_le_trans _ ((A' * B) * (u * v'))); [now apply Rmult_lt_compat_l|]. apply Rmult_le_compat_r; [|exact CW]. left. now apply Rmult_lt_0_compat.
Qed.
