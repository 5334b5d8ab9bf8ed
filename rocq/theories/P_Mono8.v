(** Proofs: surprisal splines and nested logit. *)
From Verif Require Import Base BaseFacts RBase RFacts M_Logit S_Logit P_Logit P_Logit4 M_Mono S_Mono P_Mono1 P_Mono2 P_Mono5.
Local Open Scope R_scope.

(** ** Surprisal spline *)
Lemma surprisal_coef_nonneg M K r coef b c : 0 <= surprisal_coef M K r coef b c.
Proof.
  unfold surprisal_coef. apply sumn_nonneg. intros b' _. destruct (nth c _ false); [|lra].
  apply Rlt_le, softplus_pos.
Qed.
Lemma surprisal_mask_nth M K r c : (c < M - 1)%nat ->
  nth c (surprisal_mask M K r) false = if (c <? M - K)%nat then false else r.
Proof.
  intro Hc. unfold surprisal_mask. apply nth_error_nth. rewrite nth_error_mapi, nth_error_repeat_lt by auto.
  cbn. destruct (c <? M - K)%nat; reflexivity.
Qed.
Lemma surprisal_coef_pos M K coef b c : (c < M - 1)%nat -> (M - K <= c)%nat -> 0 < surprisal_coef M K true coef b c.
Proof.
  intros Hc HK. unfold surprisal_coef. rewrite surprisal_mask_nth by auto. destruct (Nat.ltb_spec c (M - K)); [lia|].
  apply sumn_pos; [lia|]. intros; apply softplus_pos.
Qed.
Lemma surprisal_coef_zero M K r coef b c : (c < M - 1)%nat -> ((c < M - K)%nat \/ r = false) -> surprisal_coef M K r coef b c = 0.
Proof.
  intros Hc HK. unfold surprisal_coef. rewrite surprisal_mask_nth by auto.
  replace (if (c <? M - K)%nat then false else r) with false by (destruct (Nat.ltb_spec c (M - K)), HK; congruence || lia).
  apply sumn_0.
Qed.
Definition surp_at (lv nb M K : nat) (rel : nat -> bool) (basis : nat -> nat -> R) (coef : nat -> nat -> nat -> R) (c : nat) : R :=
  sumn lv (fun d => sumn nb (fun b => basis d b * surprisal_coef M K (rel d) (coef d) b c)).
Lemma surprisal_length lv nb M K rel basis coef : length (surprisal lv nb M K rel basis coef) = (M - 1)%nat.
Proof. unfold surprisal. now rewrite map_length, seq_length. Qed.
Lemma surprisal_nth lv nb M K rel basis coef c : (c < M - 1)%nat ->
  nth c (surprisal lv nb M K rel basis coef) 0 = surp_at lv nb M K rel basis coef c.
Proof. intro Hc. unfold surprisal. etransitivity; [apply nth_map_seq; exact Hc|]. reflexivity. Qed.
Lemma surp_nonneg lv nb M K rel basis coef c : (forall d b, (d < lv)%nat -> (b < nb)%nat -> 0 <= basis d b) ->
  0 <= surp_at lv nb M K rel basis coef c.
Proof.
  intro H. unfold surp_at. apply sumn_nonneg. intros d Hd. apply sumn_nonneg. intros b Hb.
  apply Rmult_le_pos; auto. apply surprisal_coef_nonneg.
Qed.
Lemma surp_zero lv nb M K rel basis coef c : (c < M - 1)%nat -> (c < M - K)%nat -> surp_at lv nb M K rel basis coef c = 0.
Proof.
  intros Hc HK. unfold surp_at. rewrite (sumn_ext lv _ (fun _ => 0)); [apply sumn_0|]. intros d _.
  rewrite (sumn_ext nb _ (fun _ => 0)); [apply sumn_0|]. intros b _. rewrite surprisal_coef_zero by auto. ring.
Qed.
Lemma sumn_pos_one n f j : (j < n)%nat -> (forall k, (k < n)%nat -> 0 <= f k) -> 0 < f j -> 0 < sumn n f.
Proof.
  intros Hj H Hp. eapply Rlt_le_trans; [exact Hp|].
  assert (E : sumn n (fun k => if (k =? j)%nat then f j else 0) = f j).
  { rewrite (sumn_single n j); auto; cbv beta; [now rewrite Nat.eqb_refl|].
    intros k _ Hne. destruct (Nat.eqb_spec k j); [contradiction|reflexivity]. }
  rewrite <- E. apply sumn_le. intros k Hk. destruct (Nat.eqb_spec k j) as [->|]; [lra|auto].
Qed.
Lemma surp_pos lv nb M K rel basis coef c d b : (c < M - 1)%nat -> (M - K <= c)%nat ->
  (forall d b, (d < lv)%nat -> (b < nb)%nat -> 0 <= basis d b) ->
  (d < lv)%nat -> rel d = true -> (b < nb)%nat -> 0 < basis d b -> 0 < surp_at lv nb M K rel basis coef c.
Proof.
  intros Hc HK H Hd Hr Hb Hp. unfold surp_at. apply (sumn_pos_one _ _ d); auto.
  - intros d' Hd'. apply sumn_nonneg. intros b' Hb'. apply Rmult_le_pos; auto. apply surprisal_coef_nonneg.
  - apply (sumn_pos_one _ _ b); auto.
    + intros b' Hb'. apply Rmult_le_pos; auto. apply surprisal_coef_nonneg.
    + rewrite Hr. apply Rmult_lt_0_compat; auto. apply surprisal_coef_pos; auto.
Qed.
Lemma rcumsum_length l : length (rcumsum l) = length l.
Proof. apply rcumsum_from_length. Qed.
Lemma nth_error_rcumsum l k : (k < length l)%nat -> nth_error (rcumsum l) k = Some (sumn (S k) (fun j => nth j l 0)).
Proof. intro H. unfold rcumsum. rewrite rcumsum_from_nth by auto. f_equal. ring. Qed.
Lemma nth_error_rev {A} (l : list A) k : (k < length l)%nat -> nth_error (rev l) k = nth_error l (length l - S k).
Proof.
  intro H. destruct l as [|x l']; [cbn in H; lia|]. set (l := x :: l') in *.
  rewrite (nth_error_nth_lt (rev l) k x) by now rewrite rev_length. rewrite (nth_error_nth_lt l _ x) by lia.
  f_equal. now rewrite rev_nth.
Qed.
(** Probabilities of a surprisal vector: entry M-1-c is exp(-S_c)(1 - exp(-s_c)). *)
Lemma surprisal_probabilities_length s : length (surprisal_probabilities s) = S (length s).
Proof.
  unfold surprisal_probabilities. rewrite rev_length, zip_with_length. cbn [length].
  rewrite map_length, app_length, map_length, rcumsum_length. cbn [length]. lia.
Qed.
Definition cum_surp (s : list R) (c : nat) : R := sumn c (fun j => nth j s 0).
Lemma surprisal_probabilities_nth s c : (c <= length s)%nat ->
  nth_error (surprisal_probabilities s) (length s - c) =
  Some (exp (- cum_surp s c) * (if (c <? length s)%nat then 1 - exp (- nth c s 0) else 1)).
Proof.
  intro Hc. unfold surprisal_probabilities.
  set (z := zip_with Rmult _ _). assert (Hz : length z = S (length s)).
  { unfold z. rewrite zip_with_length. cbn [length]. rewrite map_length, app_length, map_length, rcumsum_length. cbn [length]. lia. }
  rewrite nth_error_rev by lia. rewrite Hz. replace (S (length s) - S (length s - c))%nat with c by lia.
  unfold z. rewrite nth_error_zip_with.
  replace (nth_error (1 :: map (fun c0 => 1 / exp c0) (rcumsum s)) c) with (Some (exp (- cum_surp s c))).
  2:{ destruct c as [|c]; cbn [nth_error].
    - unfold cum_surp. cbn. now rewrite Ropp_0, exp_0.
    - rewrite nth_error_map, nth_error_rcumsum by lia. cbn [option_map]. f_equal. unfold cum_surp. rewrite exp_Ropp. unfold Rdiv. ring. }
  destruct (Nat.ltb_spec c (length s)) as [Hlt|Hge].
  - rewrite nth_error_app1 by now rewrite map_length. rewrite nth_error_map, (nth_error_nth_lt s c 0) by auto. cbn [option_map].
    f_equal. f_equal. rewrite exp_Ropp. unfold Rdiv. ring.
  - rewrite nth_error_app2 by now rewrite map_length. rewrite map_length. replace (c - length s)%nat with O by lia. reflexivity.
Qed.
(** Upper tails: P(Y >= M - c) = 1 - exp(-S_c). *)
Lemma surprisal_head_sum s c : (c <= length s)%nat ->
  sumn c (fun j => nth (length s - j) (surprisal_probabilities s) 0) = 1 - exp (- cum_surp s c).
Proof.
  induction c as [|c IH]; intro Hc.
  - unfold cum_surp. cbn. rewrite Ropp_0, exp_0. ring.
  - cbn [sumn]. rewrite IH by lia. rewrite (nth_error_nth _ _ 0 (surprisal_probabilities_nth s c ltac:(lia))).
    destruct (Nat.ltb_spec c (length s)); [|lia]. unfold cum_surp. cbn [sumn]. rewrite Ropp_plus_distr, exp_plus. ring.
Qed.
Lemma sumn_rev n f : sumn n f = sumn n (fun j => f (n - 1 - j)%nat).
Proof.
  induction n as [|n IH]; [reflexivity|]. rewrite (sumn_S_first n (fun j => f (S n - 1 - j)%nat)). cbn [sumn].
  replace (S n - 1 - 0)%nat with n by lia. rewrite IH, Rplus_comm. f_equal. apply sumn_ext. intros j Hj. f_equal. lia.
Qed.
Lemma surprisal_sum s : sumn (S (length s)) (fun k => nth k (surprisal_probabilities s) 0) = 1.
Proof.
  rewrite sumn_rev. rewrite (sumn_ext _ _ (fun j => nth (length s - j) (surprisal_probabilities s) 0)) by (intros; f_equal; lia).
  cbn [sumn]. rewrite surprisal_head_sum by lia.
  rewrite (nth_error_nth _ _ 0 (surprisal_probabilities_nth s (length s) ltac:(lia))).
  rewrite Nat.ltb_irrefl. ring.
Qed.
Lemma exp_neg_le_1 x : 0 <= x -> exp (- x) <= 1.
Proof. intro H. rewrite <- exp_0. destruct (Req_dec x 0) as [->|]; [rewrite Ropp_0; lra|]. apply Rlt_le, exp_increasing. lra. Qed.
Lemma exp_neg_lt_1 x : 0 < x -> exp (- x) < 1.
Proof. intro H. rewrite <- exp_0. apply exp_increasing. lra. Qed.
Lemma surprisal_nonneg s k : (forall c, (c < length s)%nat -> 0 <= nth c s 0) -> (k <= length s)%nat ->
  0 <= nth k (surprisal_probabilities s) 0.
Proof.
  intros H Hk. replace k with (length s - (length s - k))%nat by lia.
  rewrite (nth_error_nth _ _ 0 (surprisal_probabilities_nth s (length s - k) ltac:(lia))).
  apply Rmult_le_pos; [apply Rlt_le, exp_pos|]. destruct (Nat.ltb_spec (length s - k) (length s)) as [Hl|Hl]; [|lra].
  pose proof (exp_neg_le_1 _ (H _ Hl)). lra.
Qed.
Lemma surprisal_distribution s K : (1 <= K <= S (length s))%nat ->
  (forall c, (c < length s)%nat -> 0 <= nth c s 0) ->
  (forall c, (c < length s)%nat -> (c < S (length s) - K)%nat -> nth c s 0 = 0) ->
  length (surprisal_probabilities s) = S (length s) /\
  (forall k, (k <= length s)%nat -> 0 <= nth k (surprisal_probabilities s) 0) /\
  sumn (S (length s)) (fun k => nth k (surprisal_probabilities s) 0) = 1 /\
  (forall k, (K <= k <= length s)%nat -> nth k (surprisal_probabilities s) 0 = 0).
Proof.
  intros HK H0 Hz. split; [apply surprisal_probabilities_length|]. split; [intros; now apply surprisal_nonneg|].
  split; [apply surprisal_sum|]. intros k Hk.
  replace k with (length s - (length s - k))%nat by lia.
  rewrite (nth_error_nth _ _ 0 (surprisal_probabilities_nth s (length s - k) ltac:(lia))).
  destruct (Nat.ltb_spec (length s - k) (length s)) as [Hl|Hl]; [|lia]. rewrite Hz by lia. rewrite Ropp_0, exp_0. ring.
Qed.
(** Larger surprisals mean stochastically larger scores. *)
Lemma tail_average n (p : nat -> R) : sumn (S n) (fun k => INR k * p k) = sumn n (fun c => sumn (S c) (fun j => p (n - j)%nat)).
Proof.
  assert (G : forall m (q : nat -> R), sumn (S m) (fun j => (INR m - INR j) * q j) = sumn m (fun c => sumn (S c) q)).
  { induction m as [|m IH]; intro q; [cbn; ring|].
    change (sumn (S m) (fun c => sumn (S c) q)) with (sumn m (fun c => sumn (S c) q) + sumn (S m) q). rewrite <- IH, <- sumn_plus.
    change (sumn (S (S m)) (fun j => (INR (S m) - INR j) * q j)) with (sumn (S m) (fun j => (INR (S m) - INR j) * q j) + (INR (S m) - INR (S m)) * q (S m)).
    rewrite Rminus_diag_eq by reflexivity. rewrite Rmult_0_l, Rplus_0_r. apply sumn_ext. intros j _. rewrite S_INR. ring. }
  rewrite <- G, sumn_rev. apply sumn_ext. intros j Hj. replace (S n - 1 - j)%nat with (n - j)%nat by lia.
  rewrite minus_INR by lia. reflexivity.
Qed.
Lemma surprisal_average s : sumn (S (length s)) (fun k => INR k * nth k (surprisal_probabilities s) 0) =
  sumn (length s) (fun c => 1 - exp (- cum_surp s (S c))).
Proof.
  rewrite (tail_average (length s) (fun k => nth k (surprisal_probabilities s) 0)). apply sumn_ext. intros c Hc.
  now apply surprisal_head_sum.
Qed.
Lemma surprisal_average_monotone s s' : length s' = length s -> (forall c, (c < length s)%nat -> nth c s 0 <= nth c s' 0) ->
  sumn (S (length s)) (fun k => INR k * nth k (surprisal_probabilities s) 0) <=
  sumn (S (length s)) (fun k => INR k * nth k (surprisal_probabilities s') 0).
Proof.
  intros Hl H. rewrite surprisal_average. rewrite <- Hl. rewrite surprisal_average. rewrite Hl. apply sumn_le. intros c Hc.
  assert (cum_surp s (S c) <= cum_surp s' (S c)) by (apply sumn_le; intros; apply H; lia).
  assert (exp (- cum_surp s' (S c)) <= exp (- cum_surp s (S c))); [|lra].
  destruct (Req_dec (cum_surp s (S c)) (cum_surp s' (S c))) as [->|]; [lra|]. apply Rlt_le, exp_increasing. lra.
Qed.
(** Coefficients grow with the basis index, so a basis whose upper tails grow gives growing surprisals. *)
Lemma abel n (f g : nat -> R) : sumn n (fun b => f b * sumn (S b) g) = sumn n (fun j => g j * (sumn n f - sumn j f)).
Proof.
  induction n as [|n IH]; [reflexivity|]. cbn [sumn] in *. rewrite IH.
  rewrite (sumn_ext n (fun j => g j * (sumn n f + f n - sumn j f)) (fun j => g j * (sumn n f - sumn j f) + g j * f n)) by (intros; ring).
  rewrite sumn_plus, (sumn_scal_r). ring.
Qed.
Lemma surp_monotone lv nb M K rel basis basis' coef c :
  (forall d j, (d < lv)%nat -> (j < nb)%nat -> sumn nb (basis d) - sumn j (basis d) <= sumn nb (basis' d) - sumn j (basis' d)) ->
  surp_at lv nb M K rel basis coef c <= surp_at lv nb M K rel basis' coef c.
Proof.
  intro H. unfold surp_at. apply sumn_le. intros d Hd. unfold surprisal_coef. rewrite !abel. apply sumn_le. intros j Hj.
  apply Rmult_le_compat_l; [|now apply H]. destruct (nth c _ false); [apply Rlt_le, softplus_pos|lra].
Qed.

(** ** Nested logit *)
Lemma nth_error_mask_select {A} m (l : list A) p : length m = length l -> nth_error m p = Some true ->
  nth_error (mask_select m l) (ctrue (firstn p m)) = nth_error l p.
Proof.
  revert l p. induction m as [|b m IH]; intros l p Hl Hp; [destruct p; discriminate|].
  destruct l as [|x l]; [discriminate|]. cbn [length] in Hl. destruct p as [|p].
  - cbn in Hp. injection Hp as ->. reflexivity.
  - cbn [nth_error] in Hp. cbn [firstn]. rewrite ctrue_cons. cbn [mask_select nth_error].
    destruct b; cbn [Nat.add nth_error]; apply IH; auto.
Qed.
Lemma incorrect_map_split M c : (c < M)%nat -> incorrect_map M c = seq 0 c ++ seq (S c) (M - 1 - c).
Proof.
  intro Hc. unfold incorrect_map.
  assert (G : forall n a, (a + n <= c \/ c < a)%nat -> mask_select (map (fun k => negb (k =? c)%nat) (seq a n)) (seq a n) = seq a n).
  { induction n as [|n IH]; intros a Ha; [reflexivity|]. cbn [seq map mask_select]. destruct (Nat.eqb_spec a c); [lia|]. cbn [negb].
    f_equal. apply IH. lia. }
  replace M with (c + S (M - 1 - c))%nat at 1 2 by lia. rewrite seq_app, map_app. cbn [Nat.add seq map].
  assert (A : forall (m1 m2 : list bool) (l1 l2 : list nat), length m1 = length l1 -> mask_select (m1 ++ m2) (l1 ++ l2) = mask_select m1 l1 ++ mask_select m2 l2).
  { induction m1 as [|b m1 IH]; intros m2 [|x l1] l2 Hl; cbn in Hl; try discriminate; [reflexivity|]. cbn [app mask_select].
    destruct b; rewrite IH by lia; reflexivity. }
  rewrite A by now rewrite map_length. rewrite G by lia. cbn [mask_select]. rewrite Nat.eqb_refl. cbn [negb]. rewrite G by lia. reflexivity.
Qed.
(** Position of category [k] among the incorrect ones. *)
Definition compact (c k : nat) : nat := if (k <? c)%nat then k else (k - 1)%nat.
Lemma incorrect_map_length M c : (c < M)%nat -> length (incorrect_map M c) = (M - 1)%nat.
Proof. intro Hc. rewrite incorrect_map_split by auto. rewrite app_length, !seq_length. lia. Qed.
Lemma incorrect_map_nth M c j : (c < M)%nat -> (j < M - 1)%nat ->
  nth_error (incorrect_map M c) j = Some (if (j <? c)%nat then j else S j).
Proof.
  intros Hc Hj. rewrite incorrect_map_split by auto. destruct (Nat.ltb_spec j c).
  - rewrite nth_error_app1 by now rewrite seq_length. now rewrite nth_error_seq.
  - rewrite nth_error_app2 by now rewrite seq_length. rewrite seq_length, nth_error_seq by lia. f_equal. lia.
Qed.
Lemma incorrect_map_nodup M c : (c < M)%nat -> NoDup (incorrect_map M c).
Proof.
  intro Hc. apply NoDup_nth_error. intros i j Hi E. rewrite incorrect_map_length in Hi by auto.
  assert (Hj : (j < M - 1)%nat).
  { rewrite <- (incorrect_map_length M c) by auto. apply nth_error_Some. rewrite <- E. rewrite incorrect_map_nth by auto. discriminate. }
  rewrite !incorrect_map_nth in E by auto. injection E as E. destruct (Nat.ltb_spec i c), (Nat.ltb_spec j c); lia.
Qed.
Lemma scatter_add_length idx src l : length (scatter_add idx src l) = length l.
Proof.
  unfold scatter_add. revert l. induction (combine idx src) as [|[i v] p IH]; intro l; cbn [fold_left]; [reflexivity|].
  rewrite IH. apply upd_length.
Qed.
Lemma scatter_add_other idx src l k : ~ In k idx -> nth_error (scatter_add idx src l) k = nth_error l k.
Proof.
  unfold scatter_add. revert src l. induction idx as [|i idx IH]; intros src l H; [reflexivity|].
  destruct src as [|v src]; [reflexivity|]. cbn [combine fold_left fst snd]. rewrite IH by (intro; apply H; now right).
  rewrite nth_error_upd_neq; [reflexivity|]. intro; apply H; left; congruence.
Qed.
Lemma scatter_add_at idx src l j k v u : NoDup idx -> nth_error idx j = Some k -> nth_error src j = Some v ->
  nth_error l k = Some u -> nth_error (scatter_add idx src l) k = Some (olift2 Rplus u v).
Proof.
  unfold scatter_add. revert src l j. induction idx as [|i idx IH]; intros src l j HN Hj Hs Hl; [destruct j; discriminate|].
  destruct src as [|w src]; [destruct j; discriminate|]. inversion HN as [|? ? Hni HN']; subst. cbn [combine fold_left fst snd].
  destruct j as [|j]; cbn [nth_error] in Hj, Hs.
  - injection Hj as ->. injection Hs as ->. fold (scatter_add idx src (upd k (olift2 Rplus (nth k l None) v) l)).
    rewrite scatter_add_other by auto. rewrite nth_error_upd_eq by (apply nth_error_Some; congruence).
    now rewrite (nth_error_nth _ _ None Hl).
  - apply (IH src _ j); auto. rewrite nth_error_upd_neq; auto. intros ->. apply Hni. eapply nth_error_In; eauto.
Qed.
Lemma nested_item_nth M c p1 p0 cond k : (c < M)%nat -> length cond = (M - 1)%nat -> (k < M)%nat ->
  nth_error (nested_item M c p1 (Some p0) cond) k =
  Some (if (k =? c)%nat then p1 else olift2 Rmult (nth (compact c k) cond None) (Some p0)).
Proof.
  intros Hc Hl Hk. unfold nested_item. set (sc := map _ cond). set (l0 := upd c p1 _).
  assert (Hl0 : length l0 = M) by (unfold l0; now rewrite upd_length, repeat_length).
  destruct (Nat.eqb_spec k c) as [->|Hne].
  - rewrite scatter_add_other.
    + unfold l0. rewrite nth_error_upd_eq; [reflexivity|]. now rewrite repeat_length.
    + intro Hin. apply In_nth_error in Hin as [j Hj].
      assert (Hjl : (j < M - 1)%nat) by (rewrite <- (incorrect_map_length M c) by auto; apply nth_error_Some; congruence).
      rewrite incorrect_map_nth in Hj by auto. injection Hj as Hj. destruct (Nat.ltb_spec j c); lia.
  - assert (Hcomp : (compact c k < M - 1)%nat) by (unfold compact; destruct (Nat.ltb_spec k c); lia).
    rewrite (scatter_add_at _ sc l0 (compact c k) k (olift2 Rmult (nth (compact c k) cond None) (Some p0)) (Some 0)).
    + f_equal. destruct (nth (compact c k) cond None); cbn; [f_equal; ring|reflexivity].
    + now apply incorrect_map_nodup.
    + rewrite incorrect_map_nth by auto. f_equal. unfold compact. destruct (Nat.ltb_spec k c).
      * destruct (Nat.ltb_spec k c); lia.
      * destruct (Nat.ltb_spec (k - 1) c); lia.
    + unfold sc. rewrite nth_error_map, (nth_error_nth_lt cond _ None) by lia. reflexivity.
    + unfold l0. rewrite nth_error_upd_neq by auto. now rewrite nth_error_repeat_lt.
Qed.
Lemma nested_key_check_spec : forall cats key, length key = length cats ->
  ((forall i K z, nth_error cats i = Some K -> nth_error key i = Some z -> (0 <= z < Z.of_nat K)%Z) ->
   nested_key_check cats key = Ok tt) /\
  ((exists i K z, nth_error cats i = Some K /\ nth_error key i = Some z /\ ~ (0 <= z < Z.of_nat K)%Z) ->
   nested_key_check cats key = Err ValueError).
Proof.
  intros cats key Hl. unfold nested_key_check. set (f := fun i K => _).
  assert (F : forall i K, nth_error cats i = Some K -> exists z, nth_error key i = Some z /\
     f i K = if ((z <? 0) || (Z.of_nat K <=? z))%Z then Err ValueError else Ok tt).
  { intros i K HK. destruct (nth_error key i) as [z|] eqn:E.
    - exists z. split; [reflexivity|]. unfold f. now rewrite E.
    - apply nth_error_None in E. assert (i < length cats)%nat by (apply nth_error_Some; congruence). lia. }
  assert (B : forall z K, (((z <? 0) || (Z.of_nat K <=? z)) = false <-> 0 <= z < Z.of_nat K)%Z).
  { intros z K. rewrite orb_false_iff, Z.ltb_ge, Z.leb_gt. lia. }
  split.
  - intro H. rewrite (mapiM_total f (fun _ _ => tt)); [reflexivity|]. intros i K HK.
    destruct (F i K HK) as (z & Hz & ->). rewrite (proj2 (B z K)); [reflexivity|]. eapply H; eauto.
  - intros (i & K & z & HK & Hz & Hn). rewrite (mapiM_Err f cats ValueError); [reflexivity| |].
    + intros j K' HK'. destruct (F j K' HK') as (z' & Hz' & ->). destruct ((z' <? 0)%Z || _); eauto.
    + exists i, K. split; [auto|]. destruct (F i K HK) as (z' & Hz' & ->). rewrite Hz in Hz'. injection Hz' as <-.
      destruct ((z <? 0)%Z || (Z.of_nat K <=? z)%Z) eqn:E; [reflexivity|]. apply B in E. contradiction.
Qed.
Lemma sumn_lt_one n f g j : (j < n)%nat -> (forall k, (k < n)%nat -> f k <= g k) -> f j < g j -> sumn n f < sumn n g.
Proof.
  intros Hj H Hs. assert (0 < sumn n (fun k => g k - f k)).
  { apply (sumn_pos_one n _ j); auto; [|lra]. intros k Hk. pose proof (H k Hk). lra. }
  rewrite sumn_minus in H0. lra.
Qed.
