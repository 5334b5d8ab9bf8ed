(** Property theorems C20-C24: flexible monotone models, surprisal splines, nested logit. *)
From Verif Require Import Base BaseFacts RBase RFacts M_Logit S_Logit P_Logit P_Logit2 P_Logit4 M_Mono S_Mono
  P_Mono1 P_Mono2 P_Mono3 P_Mono4 P_Mono5 P_Mono6 P_Mono7 P_Mono8.
Local Open Scope R_scope.

(** ** C20 nested logit *)
(** Every category of an item: the key category has the correct-response probability, any other category
    [k] the probability of an incorrect response times the conditional probability of one conditional
    category, namely [k] below the key and [k-1] above it. *)
Theorem C20_categories : forall M c (p1 p0 : R) (cond : nat -> R), (c < M)%nat ->
  let p := nested_item M c (Some p1) (Some p0) (map (fun j => Some (cond j)) (seq 0 (M - 1))) in
  length p = M /\ nth_error p c = Some (Some p1) /\
  (forall k, (k < c)%nat -> nth_error p k = Some (Some (p0 * cond k))) /\
  (forall k, (c < k < M)%nat -> nth_error p k = Some (Some (p0 * cond (k - 1)%nat))).
Proof.
  intros M c p1 p0 cond Hc p. set (cd := map (fun j => Some (cond j)) (seq 0 (M - 1))).
  assert (Hl : length cd = (M - 1)%nat) by (unfold cd; now rewrite map_length, seq_length).
  assert (Hn : forall j, (j < M - 1)%nat -> nth j cd None = Some (cond j)).
  { intros j Hj. unfold cd. apply nth_error_nth. now rewrite nth_error_map_seq by auto. }
  assert (P : forall k, (k < M)%nat -> nth_error p k = Some (if (k =? c)%nat then Some p1 else olift2 Rmult (nth (compact c k) cd None) (Some p0)))
    by (intros; now apply nested_item_nth).
  split; [|split; [|split]].
  - unfold p, nested_item. now rewrite scatter_add_length, upd_length, repeat_length.
  - rewrite P by auto. now rewrite Nat.eqb_refl.
  - intros k Hk. rewrite P by lia. destruct (Nat.eqb_spec k c); [lia|]. unfold compact. destruct (Nat.ltb_spec k c); [|lia].
    rewrite Hn by lia. cbn. do 2 f_equal. ring.
  - intros k Hk. rewrite P by lia. destruct (Nat.eqb_spec k c); [lia|]. unfold compact. destruct (Nat.ltb_spec k c); [lia|].
    rewrite Hn by lia. cbn. do 2 f_equal. ring.
Qed.
Print Assumptions C20_categories.

(** The forward pass of a whole batch, for every respondent and item: with a correct-response model that
    gives proper probabilities and an incorrect-response model that gives a distribution over the K-1
    remaining categories, the result is a distribution over exactly the K categories of the item in which
    the key has the correct-response probability and the others share P(incorrect) one-to-one. *)
Theorem C20_forward_distribution : forall M key correct cond r i K c (p1 p0 : R) (q : nat -> R) cr cd crow cdrow,
  nth_error correct r = Some crow -> nth_error cond r = Some cdrow -> nth_error crow i = Some cr -> nth_error cdrow i = Some cd ->
  nth_error key i = Some c -> (c < K <= M)%nat -> (2 <= K)%nat ->
  cr = [Some p0; Some p1] -> valid_distribution 2 2 (fun k => if (k =? 0)%nat then p0 else p1) ->
  cd = map (fun j => Some (q j)) (seq 0 (M - 1)) -> valid_distribution (K - 1) (M - 1) q ->
  exists p, (forall k, (k < M)%nat -> at3 (nested_probabilities M key correct cond) r i k = Some (Some (p k))) /\
    valid_distribution K M p /\ p c = p1 /\
    (forall j, (j < K - 1)%nat -> exists k, (k < K)%nat /\ k <> c /\ p k = p0 * q j /\
       (forall j', (j' < K - 1)%nat -> (if (j' <? c)%nat then j' else S j') = k -> j' = j)).
Proof.
  intros M key correct cond r i K c p1 p0 q cr cd crow cdrow Hcr Hcd Hcri Hcdi Hk Hc HK2 -> (P1 & P2 & P3 & _) -> (Q1 & Q2 & Q3 & Q4).
  exists (fun k => if (k =? c)%nat then p1 else p0 * q (compact c k)).
  assert (Hat : forall k, (k < M)%nat -> at3 (nested_probabilities M key correct cond) r i k = Some (Some (if (k =? c)%nat then p1 else p0 * q (compact c k)))).
  { intros k Hkm. unfold at3, at2, nested_probabilities. rewrite nth_error_zip_with, Hcr, Hcd. rewrite nth_error_zip_with.
    assert (Hcb : nth_error (combine key crow) i = Some (c, [Some p0; Some p1])).
    { clear - Hk Hcri. revert crow i Hk Hcri. induction key as [|a key IH]; intros [|b crow] [|i] Hk Hcri; cbn in *; try discriminate; [congruence|auto]. }
    rewrite Hcb, Hcdi. cbn [fst snd nth].
    rewrite nested_item_nth by (lia || now rewrite map_length, seq_length).
    destruct (Nat.eqb_spec k c); [reflexivity|].
    rewrite (nth_error_nth (map (fun j => Some (q j)) (seq 0 (M - 1))) (compact c k) None (x := Some (q (compact c k)))).
    - cbn. do 2 f_equal. ring.
    - rewrite nth_error_map_seq; [reflexivity|]. unfold compact. destruct (Nat.ltb_spec k c); lia. }
  pose proof (P3 0%nat ltac:(lia)) as Hp0. pose proof (P3 1%nat ltac:(lia)) as Hp1. cbn in Hp0, Hp1, P2.
  split; [exact Hat|]. split; [split; [|split; [|split]]|split].
  - intros k Hkm. destruct (Nat.eqb_spec k c); [lra|]. apply Rmult_le_pos; [lra|]. apply Q1. unfold compact. destruct (Nat.ltb_spec k c); lia.
  - (* sum *)
    replace M with (c + S (M - 1 - c))%nat by lia. rewrite sumn_split, sumn_S_first. rewrite Nat.add_0_r, Nat.eqb_refl.
    rewrite (sumn_ext c _ (fun k => p0 * q k)).
    2:{ intros k Hkc. destruct (Nat.eqb_spec k c); [lia|]. unfold compact. destruct (Nat.ltb_spec k c); [reflexivity|lia]. }
    rewrite (sumn_ext (M - 1 - c) _ (fun j => p0 * q (c + j)%nat)).
    2:{ intros j Hj. destruct (Nat.eqb_spec (c + S j) c); [lia|]. unfold compact. destruct (Nat.ltb_spec (c + S j) c); [lia|]. do 2 f_equal. lia. }
    rewrite !sumn_scal. replace (M - 1)%nat with (c + (M - 1 - c))%nat in Q2 by lia. rewrite sumn_split in Q2.
    replace (sumn c q) with (1 - sumn (M - 1 - c) (fun j => q (c + j)%nat)) by lra. lra.
  - intros k Hkk. destruct (Nat.eqb_spec k c); [lra|]. apply Rmult_lt_0_compat; [lra|]. apply Q3. unfold compact. destruct (Nat.ltb_spec k c); lia.
  - intros k Hkk. destruct (Nat.eqb_spec k c); [lia|]. rewrite Q4; [ring|]. unfold compact. destruct (Nat.ltb_spec k c); lia.
  - now rewrite Nat.eqb_refl.
  - intros j Hj. exists (if (j <? c)%nat then j else S j). destruct (Nat.ltb_spec j c).
    + split; [lia|]. split; [lia|]. split.
      * destruct (Nat.eqb_spec j c); [lia|]. unfold compact. destruct (Nat.ltb_spec j c); [reflexivity|lia].
      * intros j' Hj'. destruct (Nat.ltb_spec j' c); lia.
    + split; [lia|]. split; [lia|]. split.
      * destruct (Nat.eqb_spec (S j) c); [lia|]. unfold compact. destruct (Nat.ltb_spec (S j) c); [lia|]. do 2 f_equal. lia.
      * intros j' Hj'. destruct (Nat.ltb_spec j' c); lia.
Qed.
Print Assumptions C20_forward_distribution.
Example C20_nonvacuous : exists p,
  (forall k, (k < 4)%nat -> at3 (nested_probabilities 4 [2;0]%nat [[[Some (1/4); Some (3/4)]; [Some (1/2); Some (1/2)]]]
    [[map (fun j => Some ((fun j => if (j <? 2)%nat then 1/2 else 0) j)) (seq 0 3); [Some (1/3); Some (1/3); Some (1/3)]]]) 0 0 k = Some (Some (p k))) /\
  valid_distribution 3 4 p /\ p 2%nat = 3/4.
Proof.
  destruct (C20_forward_distribution 4 [2;0]%nat [[[Some (1/4); Some (3/4)]; [Some (1/2); Some (1/2)]]]
    [[map (fun j => Some ((fun j => if (j <? 2)%nat then 1/2 else 0) j)) (seq 0 3); [Some (1/3); Some (1/3); Some (1/3)]]] 0 0 3 2
    (3/4) (1/4) (fun j => if (j <? 2)%nat then 1/2 else 0) _ _ _ _ eq_refl eq_refl eq_refl eq_refl eq_refl ltac:(lia) ltac:(lia) eq_refl)
    as (p & H1 & H2 & H3 & _).
  - unfold valid_distribution. split; [|split; [|split]].
    + intros [|[|k]] Hk; cbn; lra.
    + cbn. lra.
    + intros [|[|k]] Hk; cbn; lra.
    + intros; lia.
  - reflexivity.
  - unfold valid_distribution. split; [|split; [|split]].
    + intros k Hk. destruct (k <? 2)%nat; lra.
    + cbn. lra.
    + intros k Hk. destruct (Nat.ltb_spec k 2); [lra|lia].
    + intros k Hk. destruct (Nat.ltb_spec k 2); [lia|reflexivity].
  - exists p. auto.
Qed.

(** The constructor refuses every key outside an item's own categories and accepts every other key. *)
Theorem C20_key_refused : forall cats key, length key = length cats ->
  ((forall i K z, nth_error cats i = Some K -> nth_error key i = Some z -> (0 <= z < Z.of_nat K)%Z) ->
   nested_key_check cats key = Ok tt) /\
  ((exists i K z, nth_error cats i = Some K /\ nth_error key i = Some z /\ ~ (0 <= z < Z.of_nat K)%Z) ->
   nested_key_check cats key = Err ValueError).
Proof. exact nested_key_check_spec. Qed.
Print Assumptions C20_key_refused.
Example C20_key_nonvacuous : nested_key_check [3;2]%nat [2;1]%Z = Ok tt /\ nested_key_check [3;2]%nat [2;2]%Z = Err ValueError.
Proof.
  split.
  - apply C20_key_refused; [reflexivity|]. intros [|[|i]] K z HK Hz; cbn in HK, Hz; try (destruct i; discriminate); injection HK as <-; injection Hz as <-; lia.
  - apply C20_key_refused; [reflexivity|]. exists 1%nat, 2%nat, 2%Z. repeat split. lia.
Qed.

(** ** C21 surprisal splines *)
(** Any nonnegative surprisal vector whose first M-K entries are zero gives a distribution over K categories. *)
Theorem C21_distribution : forall s K, (1 <= K <= S (length s))%nat ->
  (forall c, (c < length s)%nat -> 0 <= nth c s 0) ->
  (forall c, (c < length s)%nat -> (c < S (length s) - K)%nat -> nth c s 0 = 0) ->
  length (surprisal_probabilities s) = S (length s) /\
  (forall k, (k <= length s)%nat -> 0 <= nth k (surprisal_probabilities s) 0) /\
  sumn (S (length s)) (fun k => nth k (surprisal_probabilities s) 0) = 1 /\
  (forall k, (K <= k <= length s)%nat -> nth k (surprisal_probabilities s) 0 = 0).
Proof. exact surprisal_distribution. Qed.
Print Assumptions C21_distribution.
Example C21_nonvacuous : sumn 3 (fun k => nth k (surprisal_probabilities [0; 2]) 0) = 1 /\ nth 2 (surprisal_probabilities [0;2]) 0 = 0.
Proof.
  destruct (C21_distribution [0;2] 2) as (_ & _ & H1 & H2).
  - cbn; lia.
  - intros [|[|c]] Hc; cbn in *; try lia; lra.
  - intros [|[|c]] Hc Hc2; cbn in *; try lia; lra.
  - split; [exact H1|]. apply H2. cbn; lia.
Qed.
(** Surprisal semantics: minus the log of the chance of not scoring above a level is the accumulated
    surprisal, P(Y >= M-c) = 1 - exp(-(s_0+...+s_{c-1})). *)
Theorem C21_upper_tail : forall s c, (c <= length s)%nat ->
  sumn c (fun j => nth (length s - j) (surprisal_probabilities s) 0) = 1 - exp (- sumn c (fun j => nth j s 0)).
Proof. exact surprisal_head_sum. Qed.
Print Assumptions C21_upper_tail.
(** The forward pass: whatever the coefficients, for basis values that are nonnegative and not all zero on a
    related latent variable (B-spline bases are nonnegative and sum to one) every item gets a distribution with
    positive probability on its K categories (positive also on the top one) and zero elsewhere. *)
Theorem C21_forward : forall lv nb M K rel basis coef d b,
  (1 <= K <= M)%nat -> (forall d b, (d < lv)%nat -> (b < nb)%nat -> 0 <= basis d b) ->
  (d < lv)%nat -> rel d = true -> (b < nb)%nat -> 0 < basis d b ->
  let p := surprisal_probabilities (surprisal lv nb M K rel basis coef) in
  length p = M /\ valid_distribution K M (fun k => nth k p 0).
Proof.
  intros lv nb M K rel basis coef d b HK HB Hd Hr Hb Hp p.
  set (s := surprisal lv nb M K rel basis coef) in *.
  assert (Hl : length s = (M - 1)%nat) by apply surprisal_length.
  assert (Hat : forall c, (c < M - 1)%nat -> nth c s 0 = surp_at lv nb M K rel basis coef c) by (intros; now apply surprisal_nth).
  destruct (surprisal_distribution s K) as (D1 & D2 & D3 & D4).
  { lia. } { intros c Hc. rewrite Hat by lia. now apply surp_nonneg. }
  { intros c Hc Hc2. rewrite Hat by lia. apply surp_zero; lia. }
  fold p in D1, D2, D3, D4. rewrite Hl in *. replace (S (M - 1)) with M in * by lia.
  split; [exact D1|]. split; [|split; [|split]].
  - intros k Hk. apply D2. lia.
  - exact D3.
  - intros k Hk. unfold p. replace k with (length s - (length s - k))%nat by lia.
    rewrite (nth_error_nth _ _ 0 (surprisal_probabilities_nth s (length s - k) ltac:(lia))). rewrite Hl.
    apply Rmult_lt_0_compat; [apply exp_pos|]. destruct (Nat.ltb_spec (M - 1 - k) (M - 1)) as [Hlt|Hge]; [|lra].
    rewrite Hat by lia. assert (0 < surp_at lv nb M K rel basis coef (M - 1 - k)) by (apply (surp_pos _ _ _ _ _ _ _ _ d b); auto; lia).
    pose proof (exp_neg_lt_1 _ H). lra.
  - intros k Hk. apply D4. lia.
Qed.
Print Assumptions C21_forward.
Example C21_forward_nonvacuous : exists p, valid_distribution 2 3 p.
Proof.
  exists (fun k => nth k (surprisal_probabilities (surprisal 1 2 3 2 (fun _ => true) (fun _ b => if (b =? 0)%nat then 1/4 else 3/4) (fun _ _ _ => -5/2))) 0).
  apply (C21_forward 1 2 3 2 (fun _ => true) (fun _ b => if (b =? 0)%nat then 1/4 else 3/4) (fun _ _ _ => -5/2) 0 0); try lia; auto; cbn [Nat.eqb].
  - intros d b _ _. destruct (b =? 0)%nat; lra.
  - lra.
Qed.
(** Monotonicity: when the upper tails of the basis grow (which is what a B-spline basis does along its
    argument), every surprisal and hence the expected item score grows; this is what the cumulative sum of
    softplus coefficients is for. *)
Theorem C21_expected_score_monotone : forall lv nb M K rel basis basis' coef, (1 <= M)%nat ->
  (forall d j, (d < lv)%nat -> (j < nb)%nat ->
     sumn nb (basis d) - sumn j (basis d) <= sumn nb (basis' d) - sumn j (basis' d)) ->
  let p := surprisal_probabilities (surprisal lv nb M K rel basis coef) in
  let p' := surprisal_probabilities (surprisal lv nb M K rel basis' coef) in
  (forall c, (c < M - 1)%nat ->
     nth c (surprisal lv nb M K rel basis coef) 0 <= nth c (surprisal lv nb M K rel basis' coef) 0) /\
  sumn M (fun k => INR k * nth k p 0) <= sumn M (fun k => INR k * nth k p' 0).
Proof.
  intros lv nb M K rel basis basis' coef HM H p p'.
  assert (G : forall c, (c < M - 1)%nat ->
     nth c (surprisal lv nb M K rel basis coef) 0 <= nth c (surprisal lv nb M K rel basis' coef) 0).
  { intros c Hc. rewrite !surprisal_nth by auto. now apply surp_monotone. }
  split; [exact G|]. unfold p, p'.
  pose proof (surprisal_average_monotone (surprisal lv nb M K rel basis coef) (surprisal lv nb M K rel basis' coef)) as A.
  rewrite !surprisal_length in A. replace (S (M - 1)) with M in A by lia. now apply A.
Qed.
Print Assumptions C21_expected_score_monotone.
Example C21_monotone_nonvacuous :
  let p b := surprisal_probabilities (surprisal 1 2 3 3 (fun _ => true) b (fun _ _ _ => 0)) in
  sumn 3 (fun k => INR k * nth k (p (fun _ b => if (b =? 0)%nat then 1 else 0)) 0) <=
  sumn 3 (fun k => INR k * nth k (p (fun _ b => if (b =? 0)%nat then 0 else 1)) 0).
Proof.
  refine (proj2 (C21_expected_score_monotone 1 2 3 3 (fun _ => true) _ _ (fun _ _ _ => 0) ltac:(lia) _)).
  intros d [|[|j]] _ Hj; cbn; lra || lia.
Qed.

(** ** C22 BoundedELU *)
Theorem C22_shape : forall a, 0 < a ->
  increasing (belu a) /\ (forall x, belu a (- x) = - belu a x) /\ continuity (belu a) /\
  (forall x, -1 <= x <= 1 -> belu a x = x) /\ (forall x, - (1 + a) < belu a x < 1 + a) /\
  (forall e, 0 < e -> exists x, 1 + a - e < belu a x).
Proof.
  intros a Ha. split; [now apply belu_increasing|]. split; [apply belu_odd|]. split; [now apply belu_continuous|].
  split; [intros; now apply belu_mid|]. split; [intro; now apply belu_bounds|]. intros; now apply belu_bound_tight.
Qed.
Print Assumptions C22_shape.
Theorem C22_gradient : forall a x, (x <> 1 /\ x <> -1) \/ a = 1 -> derivable_pt_lim (belu a) x (belu_backward a x).
Proof. exact belu_derivative. Qed.
Print Assumptions C22_gradient.
(** The restriction at the joins is needed: for alpha <> 1 the function has no derivative there. *)
Theorem C22_kink : forall a l, 0 < a -> derivable_pt_lim (belu a) 1 l -> a = 1 /\ l = 1.
Proof. exact belu_kink. Qed.
Print Assumptions C22_kink.
Example C22_nonvacuous : belu 2 (1/2) = 1/2 /\ derivable_pt_lim (belu 2) 3 (2 * exp (-2)) /\ derivable_pt_lim (belu 1) 1 (belu_backward 1 1).
Proof.
  split; [apply (C22_shape 2); lra|]. split.
  - replace (2 * exp (-2)) with (belu_backward 2 3); [apply C22_gradient; left; lra|].
    unfold belu_backward. rewrite (rleb_false 3), rleb_true by lra. cbn [indicator]. replace (-(3) + 1) with (-2) by ring. ring.
  - apply C22_gradient. now right.
Qed.

(** ** C23 MonotoneNN *)
(** One layer followed by the split activation. *)
Theorem C23_layer : forall (bounded : bool) m x x', spl_wf m -> (sl_out m mod (if bounded then 3 else 2) = 0)%nat ->
  length x = sl_in m -> le_vec x x' ->
  exists y y', split_activation bounded (spl_forward m x) = Ok y /\ split_activation bounded (spl_forward m x') = Ok y' /\
    length y = sl_out m /\ le_vec y y'.
Proof.
  intros bounded m x x' Hwf Hd Hx Hle.
  destruct (split_activation_monotone bounded (spl_forward m x) (spl_forward m x')) as (y & y' & Hy & Hy' & Hl & Hv).
  - rewrite spl_forward_length by auto. exact Hd.
  - now apply spl_forward_monotone.
  - exists y, y'. rewrite spl_forward_length in Hl by auto. auto.
Qed.
Print Assumptions C23_layer.
(** Constructed layers are well formed, whatever parameter values training puts in. *)
Theorem C23_layer_built : forall n_in n_out sin sout zin zout m0 m,
  spl_init n_in n_out sin sout zin zout true = Ok m0 -> (0 < n_in)%nat ->
  (forall z, zin = Some z -> length z = n_in) -> (forall z, zout = Some z -> length z = n_out) ->
  same_layer m0 m -> spl_wf m /\ sl_in m = n_in /\ sl_out m = n_out.
Proof.
  intros n_in n_out sin sout zin zout m0 m H Hin Hzi Hzo (E1 & E2 & E3 & E4 & E5 & E6 & E7).
  destruct (spl_init_wf _ _ _ _ _ _ _ H Hin Hzi Hzo) as ((W1 & W2 & W3 & W4 & W5 & W6 & W7) & A1 & A2).
  unfold spl_wf. rewrite E1, E2, E3, E4, E5, E6, E7. intuition congruence.
Qed.
Print Assumptions C23_layer_built.
Example C23_layer_nonvacuous : exists m, spl_init 2 4 (Some [1;1]%nat) None None None true = Ok m /\ spl_wf m /\
  exists y y', split_activation false (spl_forward m [0;1]) = Ok y /\ split_activation false (spl_forward m [2;1]) = Ok y' /\ le_vec y y'.
Proof.
  eexists; split; [reflexivity|]. match goal with |- spl_wf ?m /\ _ => assert (W : spl_wf m) end.
  { refine (proj1 (C23_layer_built 2 4 (Some [1;1]%nat) None None None _ _ eq_refl ltac:(lia) _ _ _)); try discriminate.
    unfold same_layer. repeat split. }
  split; [exact W|]. destruct (C23_layer false _ [0;1] [2;1] W) as (y & y' & H1 & H2 & _ & H3); try reflexivity.
  { repeat constructor; lra. } exists y, y'. auto.
Qed.
(** Separated layers: outputs of group [g] are functions of group [g]'s inputs only... *)
Theorem C23_groups : forall n_in n_out (sin : list nat) (sout : option (list nat)) (zin zout : option (list bool)) m0 m g ig og x x' o,
  let so := match sout with Some so => so | None => even_groups n_out (length sin) end in
  spl_init n_in n_out (Some sin) sout zin zout true = Ok m0 -> (0 < n_in)%nat ->
  (forall z, zin = Some z -> length z = n_in) -> (forall z, zout = Some z -> length z = n_out) -> same_layer m0 m ->
  nth_error sin g = Some ig -> nth_error so g = Some og ->
  length x = n_in -> length x' = n_in ->
  (offset so g <= o < offset so g + og)%nat -> (o < n_out)%nat ->
  (forall i, (offset sin g <= i < offset sin g + ig)%nat -> nth i x 0 = nth i x' 0) ->
  nth_error (spl_forward m x) o = nth_error (spl_forward m x') o.
Proof.
  intros n_in n_out sin sout zin zout m0 m g ig og x x' o so H Hin Hzi Hzo Hs Hg1 Hg2 Hx Hx' Ho Hon Heq.
  destruct (C23_layer_built _ _ _ _ _ _ _ _ H Hin Hzi Hzo Hs) as (W & A1 & A2).
  rewrite !spl_forward_spec by (auto; lia). f_equal. f_equal. unfold predictor. apply sumn_ext. intros i Hi.
  destruct (in_slice (offset sin g) ig i) eqn:Es.
  - unfold in_slice in Es. apply andb_true_iff in Es as [E1 E2]. apply Nat.leb_le in E1. apply Nat.ltb_lt in E2. now rewrite Heq by lia.
  - assert (Hf : nth i (nth o (sl_free m) []) false = false).
    { destruct Hs as (E1 & E2 & E3 & E4 & E5 & _). rewrite E5. rewrite (spl_free_at _ _ _ _ _ _ _ _ o i H Hzi Hzo) by lia.
      fold so. rewrite (separate_weights_spec n_in n_out sin so g ig og) by (auto; lia). rewrite Es. now rewrite andb_false_r. }
    unfold layer_weight, slope. rewrite Hf. ring.
Qed.
Print Assumptions C23_groups.
(** ... and depend on each of them with a strictly positive weight unless that input or output is zeroed. *)
Theorem C23_groups_connected : forall n_in n_out (sin : list nat) (sout : option (list nat)) (zin zout : option (list bool)) m0 m g ig og x x' o,
  let so := match sout with Some so => so | None => even_groups n_out (length sin) end in
  spl_init n_in n_out (Some sin) sout zin zout true = Ok m0 -> (0 < n_in)%nat ->
  (forall z, zin = Some z -> length z = n_in) -> (forall z, zout = Some z -> length z = n_out) -> same_layer m0 m ->
  nth_error sin g = Some ig -> nth_error so g = Some og ->
  length x = n_in -> le_vec x x' ->
  (offset so g <= o < offset so g + og)%nat -> (o < n_out)%nat ->
  (match zout with Some z => nth o z false | None => false end) = false ->
  (exists i, (offset sin g <= i < offset sin g + ig)%nat /\ (i < n_in)%nat /\ nth i x 0 < nth i x' 0 /\
     (match zin with Some z => nth i z false | None => false end) = false) ->
  exists y y', nth_error (spl_forward m x) o = Some y /\ nth_error (spl_forward m x') o = Some y' /\ y < y'.
Proof.
  intros n_in n_out sin sout zin zout m0 m g ig og x x' o so H Hin Hzi Hzo Hs Hg1 Hg2 Hx Hle Ho Hon Hz (i & Hi & Hin' & Hlt & Hzi').
  destruct (C23_layer_built _ _ _ _ _ _ _ _ H Hin Hzi Hzo Hs) as (W & A1 & A2). pose proof (le_vec_length _ _ Hle) as Hl.
  rewrite !spl_forward_spec by (auto; lia). eexists; eexists; split; [reflexivity|]. split; [reflexivity|].
  apply Rplus_lt_compat_r. unfold predictor. apply (sumn_lt_one _ _ _ i); [lia| |].
  - intros j Hj. apply Rmult_le_compat_l; [apply layer_weight_nonneg, W|]. now apply le_vec_nth.
  - apply Rmult_lt_compat_l; auto. apply layer_weight_pos; auto.
    pose proof Hs as (E1 & E2 & E3 & E4 & E5 & _). rewrite E5. rewrite (spl_free_at _ _ _ _ _ _ _ _ o i H Hzi Hzo) by lia.
    fold so. rewrite (separate_weights_spec n_in n_out sin so g ig og) by (auto; lia).
    rewrite Hzi'. rewrite (spl_zero_out_init _ _ _ _ _ _ _ _ H).
    replace (nth o (match zout with Some z => z | None => repeat false n_out end) false) with false.
    + unfold in_slice. destruct (Nat.leb_spec (offset sin g) i), (Nat.ltb_spec i (offset sin g + ig)); lia || reflexivity.
    + destruct zout; [auto|]. symmetry. apply nth_repeat.
Qed.
Print Assumptions C23_groups_connected.
(** Even distribution of outputs when only the inputs are grouped: sizes differ by at most one and add up. *)
Theorem C23_even_groups : forall n g, (0 < g)%nat ->
  list_sum (even_groups n g) = n /\ length (even_groups n g) = g /\
  (forall k s, nth_error (even_groups n g) k = Some s -> (s = n / g \/ s = n / g + 1)%nat).
Proof.
  intros n g Hg. destruct (even_groups_sum n g Hg) as [H1 H2]. split; [auto|]. split; [auto|].
  intros k s Hk. apply nth_error_In in Hk. unfold even_groups in Hk. apply in_app_iff in Hk as [Hk|Hk]; apply repeat_spec in Hk; auto.
Qed.
Print Assumptions C23_even_groups.
(** Group sizes that do not add up, and separating outputs without inputs, are refused. *)
Theorem C23_groups_refused : forall n_in n_out sin sout zin zout sp,
  (list_sum sin <> n_in -> spl_init n_in n_out (Some sin) sout zin zout sp = Err ValueError) /\
  (forall so, list_sum sin = n_in -> list_sum so <> n_out -> spl_init n_in n_out (Some sin) (Some so) zin zout sp = Err ValueError) /\
  (forall so, spl_init n_in n_out None (Some so) zin zout sp = Err ValueError).
Proof.
  intros. split; [|split].
  - intro H. unfold spl_init. destruct (Nat.eqb_spec (list_sum sin) n_in); [contradiction|]. reflexivity.
  - intros so H1 H2. unfold spl_init. rewrite H1, Nat.eqb_refl. cbn [negb]. destruct (Nat.eqb_spec (list_sum so) n_out); [contradiction|]. destruct sin; reflexivity.
  - reflexivity.
Qed.
Print Assumptions C23_groups_refused.
(** Any stack of layers. *)
Theorem C23_stack : forall (bounded : bool) groups ls prev x x',
  stack_wf groups prev ls -> Forall (fun l => (sl_out l mod (if bounded then 3 else 2) = 0)%nat) ls ->
  length x = prev -> le_vec x x' ->
  exists y y', run_layers bounded ls x = Ok y /\ run_layers bounded ls x' = Ok y' /\ le_vec y y' /\
    length y = last (map sl_out ls) prev.
Proof. exact run_layers_monotone. Qed.
Print Assumptions C23_stack.
(** The split activation applies, position by position, elu, its reflection and (bounded) the bounded elu,
    and fails on widths that are not a multiple of its period; the constructor refuses such hidden sizes. *)
Theorem C23_split_activation : forall (bounded : bool) x,
  ((length x mod (if bounded then 3 else 2) = 0)%nat ->
   exists y, split_activation bounded x = Ok y /\ length y = length x /\
     forall i, (i < length x)%nat -> nth i y 0 =
       match (i mod (if bounded then 3 else 2))%nat with
       | O => elu (nth i x 0) | 1%nat => - elu (- nth i x 0) | _ => belu 1 (nth i x 0) end) /\
  ((length x mod (if bounded then 3 else 2) <> 0)%nat -> split_activation bounded x = Err RuntimeError).
Proof.
  intros bounded x. split; [|exact (split_activation_error bounded x)].
  intro H. destruct (split_activation_spec bounded x H) as (y & H1 & H2 & H3). exists y. split; [auto|]. split; [auto|].
  intros i Hi. rewrite H3 by auto. unfold act. destruct bounded.
  - destruct (i mod 3)%nat as [|[|k]]; reflexivity.
  - pose proof (Nat.mod_upper_bound i 2 ltac:(lia)). destruct (i mod 2)%nat as [|[|k]]; try reflexivity. lia.
Qed.
Print Assumptions C23_split_activation.
Theorem C23_hidden_refused : forall cats lv rel h key sep neg (bounded : bool),
  (exists x, In x h /\ (x mod (if bounded then 3 else 2) <> 0)%nat) ->
  (exists r, relationships (length cats) lv rel = Ok r) ->
  mnn_init cats lv rel (Some h) key sep neg bounded = Err ValueError.
Proof.
  intros cats lv rel h key sep neg bounded (x & Hx & Hm) (r & E). unfold mnn_init.
  rewrite E. cbn [bind].
  destruct (forallb _ h) eqn:Ef; [|reflexivity]. rewrite forallb_forall in Ef. specialize (Ef x Hx). apply Nat.eqb_eq in Ef. contradiction.
Qed.
Print Assumptions C23_hidden_refused.

(** End to end.  For every constructed model, whatever values training gives its parameters: moving one
    latent variable up moves every item's expected score in the learned direction of that pair (and not at
    all for unrelated pairs). *)
Theorem C23_expected_score_monotone : forall cats lv rel hidden sep neg bounded m0 m thetas r r' t t' i d,
  mnn_init cats lv rel hidden None sep neg bounded = Ok m0 -> cats <> [] -> Forall (fun K => (1 <= K)%nat) cats ->
  (0 < lv)%nat -> (forall h, hidden = Some h -> Forall (fun x => (0 < x)%nat) h) -> same_mnn m0 m ->
  Forall (fun t => length t = lv) thetas -> nth_error thetas r = Some t -> nth_error thetas r' = Some t' ->
  (d < lv)%nat -> (i < length cats)%nat -> increases_in d t t' ->
  exists probs es e e', mnn_probabilities m thetas = Ok probs /\
    expected_item_scores (length cats) (list_max cats) None probs = Ok es /\
    at2 es r i = Some (Some e) /\ at2 es r' i = Some (Some e') /\
    (0 <= mnn_direction m i d -> e <= e') /\ (mnn_direction m i d <= 0 -> e' <= e).
Proof.
  intros cats lv rel hidden sep neg bounded m0 m thetas r r' t t' i d H Hc HK Hlv Hh Hs HF Hr Hr' Hd Hi Hinc.
  destruct (mnn_init_ok _ _ _ _ _ _ _ _ _ H Hc HK Hlv Hh) as (Hok & E1 & E2 & E3 & _).
  pose proof (same_mnn_ok _ _ Hs Hok) as Hok'. destruct Hs as (S1 & S2 & S3 & S4 & S5 & S6 & S7 & S8 & _).
  pose proof (mnn_expected m thetas r r' t t' i d Hok') as G. unfold n_items, n_max in G. rewrite S1, S2, S8, E1, E2, E3 in G. now apply G.
Qed.
Print Assumptions C23_expected_score_monotone.
Example C23_nonvacuous : exists m probs es e e', mnn_init [3;2]%nat 2 None (Some [3;6]%nat) None true true true = Ok m /\
  mnn_probabilities m [[0;0];[0;1]] = Ok probs /\ expected_item_scores 2 3 None probs = Ok es /\
  at2 es 0 1 = Some (Some e) /\ at2 es 1 1 = Some (Some e') /\ e <= e'.
Proof.
  destruct (mnn_init [3;2]%nat 2 None (Some [3;6]%nat) None true true true) as [m|e] eqn:E.
  2:{ vm_compute in E. discriminate. }
  destruct (C23_expected_score_monotone [3;2]%nat 2 None (Some [3;6]%nat) true true true m m [[0;0];[0;1]] 0 1 [0;0] [0;1] 1 1 E)
    as (probs & es & e & e' & H1 & H2 & H3 & H4 & H5 & _); try reflexivity; try lia; try (cbn; lia); try discriminate.
  - repeat constructor.
  - intros h Hh. injection Hh as <-. repeat constructor.
  - apply same_mnn_refl.
  - repeat constructor.
  - unfold increases_in. split; [reflexivity|]. split; [cbn; lra|]. intros [|[|e]] He; cbn; lia || (try destruct e; reflexivity).
  - exists m, probs, es, e, e'. split; [reflexivity|]. split; [exact H1|]. split; [exact H2|]. split; [exact H3|]. split; [exact H4|]. apply H5.
    unfold mnn_init in E. cbn in E. injection E as <-. unfold mnn_direction. cbn. lra.
Qed.
(** Multiple-choice: the probability of the keyed answer moves in the learned direction. *)
Theorem C23_key_probability_monotone : forall cats lv rel hidden key sep neg bounded m0 m thetas r r' t t' i d,
  mnn_init cats lv rel hidden (Some key) sep neg bounded = Ok m0 -> cats <> [] -> Forall (fun K => (1 <= K)%nat) cats ->
  (0 < lv)%nat -> (forall h, hidden = Some h -> Forall (fun x => (0 < x)%nat) h) -> same_mnn m0 m ->
  length key = length cats -> (forall i K, nth_error cats i = Some K -> (nth i key O < K)%nat) ->
  Forall (fun t => length t = lv) thetas -> nth_error thetas r = Some t -> nth_error thetas r' = Some t' ->
  (d < lv)%nat -> (i < length cats)%nat -> increases_in d t t' ->
  exists probs p p', mnn_probabilities m thetas = Ok probs /\
    at3 probs r i (nth i key O) = Some (Some p) /\ at3 probs r' i (nth i key O) = Some (Some p') /\
    (0 <= mnn_direction m i d -> p <= p') /\ (mnn_direction m i d <= 0 -> p' <= p).
Proof.
  intros cats lv rel hidden key sep neg bounded m0 m thetas r r' t t' i d H Hc HK Hlv Hh Hs Hkl Hk HF Hr Hr' Hd Hi Hinc.
  destruct (mnn_init_ok _ _ _ _ _ _ _ _ _ H Hc HK Hlv Hh) as (Hok & E1 & E2 & E3 & _).
  pose proof (same_mnn_ok _ _ Hs Hok) as Hok'. destruct Hs as (S1 & S2 & S3 & S4 & S5 & S6 & S7 & S8 & _).
  pose proof (mnn_key_probability m thetas r r' t t' i d key Hok') as G. unfold n_items in G. rewrite S1, S2, S8, E1, E2, E3 in G. now apply G.
Qed.
Print Assumptions C23_key_probability_monotone.
Example C23_key_nonvacuous : exists m probs p p', mnn_init [3;2]%nat 1 None None (Some [2;0]%nat) false false false = Ok m /\
  mnn_probabilities m [[0];[1]] = Ok probs /\
  at3 probs 0 1 0 = Some (Some p) /\ at3 probs 1 1 0 = Some (Some p') /\ p <= p'.
Proof.
  destruct (mnn_init [3;2]%nat 1 None None (Some [2;0]%nat) false false false) as [m|e] eqn:E.
  2:{ vm_compute in E. discriminate. }
  destruct (C23_key_probability_monotone [3;2]%nat 1 None None [2;0]%nat false false false m m [[0];[1]] 0 1 [0] [1] 1 0 E)
    as (probs & p & p' & H1 & H2 & H3 & H4 & _); try reflexivity; try lia; try (cbn; lia); try discriminate.
  - repeat constructor.
  - apply same_mnn_refl.
  - intros [|[|i]] K HK; cbn in *; try (destruct i; discriminate); injection HK as <-; lia.
  - repeat constructor.
  - unfold increases_in. split; [reflexivity|]. split; [cbn; lra|]. intros [|e] He; cbn; lia || (try destruct e; reflexivity).
  - exists m, probs, p, p'. split; [reflexivity|]. split; [exact H1|]. split; [exact H2|]. split; [exact H3|]. apply H4.
    unfold mnn_init in E. cbn in E. injection E as <-. unfold mnn_direction. cbn. lra.
Qed.
(** The weights reported for item_theta_relationship_directions are exactly these learned directions. *)
Theorem C23_reported_direction : forall cats lv rel hidden key sep bounded m0 m i d,
  mnn_init cats lv rel hidden key sep true bounded = Ok m0 -> cats <> [] -> Forall (fun K => (1 <= K)%nat) cats ->
  (0 < lv)%nat -> (forall h, hidden = Some h -> Forall (fun x => (0 < x)%nat) h) -> same_mnn m0 m ->
  (d < lv)%nat -> (i < length cats)%nat ->
  nth_error (all_item_weights (column false d (n_rel m)) (nth d (n_neg m) [])) i = Some (mnn_direction m i d).
Proof.
  intros cats lv rel hidden key sep bounded m0 m i d H Hc HK Hlv Hh Hs Hd Hi.
  destruct (mnn_init_ok _ _ _ _ _ _ _ _ _ H Hc HK Hlv Hh) as (Hok & E1 & E2 & E3 & E4 & E5 & _).
  pose proof (same_mnn_ok _ _ Hs Hok) as (O1 & O2 & O3 & _ & _ & _ & _ & _ & O4 & _).
  destruct Hs as (S1 & S2 & S3 & S4 & S5 & S6 & S7 & S8 & _).
  assert (Hl : length (column false d (n_rel m)) = length cats) by (unfold column; rewrite map_length, O3; unfold n_items; congruence).
  rewrite all_item_weights_nth; [|apply O4; lia|lia]. f_equal. unfold mnn_direction. rewrite S6, E5.
  replace (nth i (column false d (n_rel m)) false) with (nth d (nth i (n_rel m) []) false); [reflexivity|].
  unfold column in *. rewrite map_length in Hl. symmetry. apply nth_error_nth. rewrite nth_error_map, (nth_error_nth_lt (n_rel m) i []) by lia. reflexivity.
Qed.
Print Assumptions C23_reported_direction.

(** ** C24 monotone polynomials *)
(** Even degrees are refused; odd degrees give exactly [degree] coefficients. *)
Theorem C24_degree : forall degree,
  (Nat.Even degree -> mpoly_degree degree = Err ValueError) /\
  (Nat.Odd degree -> exists k, mpoly_degree degree = Ok k /\ degree = (2 * k + 1)%nat /\
     forall m d o, mp_k m = k -> length (mp_coefs m d o) = degree).
Proof.
  intro degree. split.
  - intro H. unfold mpoly_degree. apply Nat.even_spec in H. now rewrite H.
  - intro H. pose proof H as [q Hq]. apply Nat.odd_spec in H. exists ((degree - 1) / 2)%nat.
    assert (E : mpoly_degree degree = Ok ((degree - 1) / 2)%nat) by now rewrite odd_degree, H.
    split; [exact E|]. split; [|intros m d o Hm; exact (odd_degree_length _ _ d o m E Hm)].
    subst degree. replace (2 * q + 1 - 1)%nat with (q * 2)%nat by lia. rewrite Nat.div_mul by lia. lia.
Qed.
Print Assumptions C24_degree.
Theorem C24_model_degree_refused : forall cats lv rel degree sep neg dir0, Nat.Even degree ->
  (exists r, relationships (length cats) lv rel = Ok r) ->
  mpm_init cats lv rel degree sep neg dir0 = Err ValueError.
Proof.
  intros cats lv rel degree sep neg dir0 H (r & E). unfold mpm_init.
  rewrite E. cbn [bind].
  destruct (C24_degree degree) as [D _]. now rewrite (D H).
Qed.
Print Assumptions C24_model_degree_refused.
(** Each latent variable's polynomial is strictly monotone in the learned direction, for every parameter
    value and every degree; a switched-off pair contributes nothing. *)
Theorem C24_monotone : forall m d o x y, x < y ->
  (mp_masked m d o = false -> 0 < mp_direction m d o -> poly_eval (mp_coefs m d o) x < poly_eval (mp_coefs m d o) y) /\
  (mp_masked m d o = false -> mp_direction m d o < 0 -> poly_eval (mp_coefs m d o) y < poly_eval (mp_coefs m d o) x) /\
  (mp_masked m d o = true -> poly_eval (mp_coefs m d o) x = 0) /\
  poly_eval (mp_coefs m d o) 0 = 0.
Proof.
  intros m d o x y H. destruct (poly_monotone m d o x y H) as (P1 & P2 & P3). unfold mp_sign in *.
  split; [|split; [|split]].
  - intros Hm Hd. rewrite Hm in *. auto.
  - intros Hm Hd. rewrite Hm in *. auto.
  - intro Hm. rewrite mp_primitive_coefs, Hm. ring.
  - rewrite mp_primitive_coefs. unfold primitive. rewrite (sumn_ext _ _ (fun _ => 0)), sumn_0; [ring|].
    intros j _. rewrite pow_i by lia. ring.
Qed.
Print Assumptions C24_monotone.
(** The forward pass of the module: one latent variable up, each output moves strictly in the direction. *)
Theorem C24_forward_monotone : forall m x x' d o, (o < mp_out m)%nat -> length x = mp_in m -> (d < mp_in m)%nat ->
  increases_in d x x' ->
  exists v v', nth_error (mpoly_forward m x) o = Some v /\ nth_error (mpoly_forward m x') o = Some v' /\
    (mp_masked m d o = true -> v = v') /\
    (mp_masked m d o = false -> (0 < mp_direction m d o -> v < v') /\ (mp_direction m d o < 0 -> v' < v)).
Proof.
  intros m x x' d o Ho Hx Hd Hinc. destruct (mpoly_forward_monotone m x x' d o Ho Hx Hd Hinc) as (v & v' & H1 & H2 & P1 & P2 & P3).
  exists v, v'. split; [auto|]. split; [auto|]. unfold mp_sign in *. split; intro Hm; rewrite Hm in *; auto.
Qed.
Print Assumptions C24_forward_monotone.
(** The derivative of the polynomial is the product of positive quadratics it is built from. *)
Theorem C24_derivative : forall m d o x, mp_masked m d o = false ->
  derivable_pt_lim (poly_eval (mp_coefs m d o)) x
    (mp_direction m d o * (softplus (mp_omega m d o) *
       fold_right Rmult 1 (map (fun i => (1 - mp_alpha m i d o * x) ^ 2 + softplus (mp_tau m i d o) * x ^ 2) (seq 0 (mp_k m))))).
Proof. exact poly_derivative. Qed.
Print Assumptions C24_derivative.
Example C24_nonvacuous : exists m, mpm_init [3]%nat 1 None 3 true true (fun _ _ => -1) = Ok m /\
  poly_eval (mp_coefs (q_poly m) 0 0) 2 < poly_eval (mp_coefs (q_poly m) 0 0) 1.
Proof.
  eexists; split; [reflexivity|]. apply (C24_monotone _ 0 0 1 2 ltac:(lra)).
  - reflexivity.
  - unfold mp_direction. cbn. lra.
Qed.
(** End to end: expected item scores follow the sign of the learned direction, strictly for items with at
    least two categories. *)
Theorem C24_expected_score_monotone : forall cats lv rel degree sep neg dir0 m0 m thetas r r' t t' i d K,
  mpm_init cats lv rel degree sep neg dir0 = Ok m0 -> cats <> [] -> Forall (fun K => (1 <= K)%nat) cats ->
  same_mpm m0 m -> Forall (fun t => length t = lv) thetas -> nth_error thetas r = Some t -> nth_error thetas r' = Some t' ->
  (d < lv)%nat -> nth_error cats i = Some K -> increases_in d t t' ->
  exists es e e', expected_item_scores (length cats) (list_max cats) None (mpm_probabilities m thetas) = Ok es /\
    at2 es r i = Some (Some e) /\ at2 es r' i = Some (Some e') /\
    (mpm_directions m i d = 1%Z -> e <= e') /\ (mpm_directions m i d = (-1)%Z -> e' <= e) /\
    (mpm_directions m i d = 0%Z -> e = e') /\
    ((2 <= K)%nat -> mp_masked (q_poly m) d (i * mp_shared (q_poly m)) = false ->
       (mpm_directions m i d = 1%Z -> e < e') /\ (mpm_directions m i d = (-1)%Z -> e' < e)).
Proof.
  intros cats lv rel degree sep neg dir0 m0 m thetas r r' t t' i d K H Hc HK Hs HF Hr Hr' Hd Hi Hinc.
  destruct (mpm_init_ok _ _ _ _ _ _ _ _ H Hc HK) as (Hok & E1 & E2 & _).
  pose proof (same_mpm_ok _ _ Hs Hok) as Hok'. destruct Hs as (S1 & S2 & S3 & S4 & S5 & _).
  pose proof (mpm_expected m thetas r r' t t' i d K Hok') as G. unfold q_items, q_max in G. rewrite S1, S5, E1, E2 in G.
  destruct (G HF Hr Hr' Hd Hi Hinc) as (es & e & e' & H1 & H2 & H3 & P1 & P2 & P3).
  exists es, e, e'. split; [auto|]. split; [auto|]. split; [auto|].
  assert (Hil : (i < q_items m)%nat) by (unfold q_items; rewrite S1, E1; apply nth_error_Some; congruence).
  destruct (mpm_directions_sign m i d Hok' Hil) as (D1 & D2 & D3).
  split; [|split; [|split]].
  - intro Hz. destruct (D1 Hz) as [Hlt|Heq]; [now apply P1|right; apply P3; congruence].
  - intro Hz. destruct (D2 Hz) as [Hlt|Heq]; [now apply P2|right; symmetry; apply P3; congruence].
  - intro Hz. apply P3; auto.
  - intros HK2 Hm. destruct (mpm_directions_strict m i d Hok' Hil Hm) as (T1 & T2). split; intro Hz.
    + apply P1; auto.
    + apply P2; auto.
Qed.
Print Assumptions C24_expected_score_monotone.
Example C24_end_to_end_nonvacuous : exists m es e e', mpm_init [3;2]%nat 2 None 5 false true (fun d _ => if (d =? 0)%nat then 1 else -1) = Ok m /\
  expected_item_scores 2 3 None (mpm_probabilities m [[0;0];[0;1]]) = Ok es /\
  at2 es 0 1 = Some (Some e) /\ at2 es 1 1 = Some (Some e') /\ e' < e.
Proof.
  destruct (mpm_init [3;2]%nat 2 None 5 false true (fun d _ => if (d =? 0)%nat then 1 else -1)) as [m|err] eqn:E.
  2:{ vm_compute in E. discriminate. }
  destruct (C24_expected_score_monotone [3;2]%nat 2 None 5 false true _ m m [[0;0];[0;1]] 0 1 [0;0] [0;1] 1 1 2 E)
    as (es & e & e' & H1 & H2 & H3 & _ & _ & _ & H4); try reflexivity; try lia; try (cbn; lia); try discriminate.
  - repeat constructor.
  - unfold same_mpm. repeat split; auto.
  - repeat constructor.
  - unfold increases_in. split; [reflexivity|]. split; [cbn; lra|]. intros [|[|e]] He; cbn; lia || (try destruct e; reflexivity).
  - exists m, es, e, e'. split; [reflexivity|]. split; [exact H1|]. split; [exact H2|]. split; [exact H3|].
    unfold mpm_init in E. cbn in E. injection E as <-. apply H4; [lia|reflexivity|].
    unfold mpm_directions. cbn. unfold rsign. destruct (Rlt_dec 0 (-1 * 1)); [lra|]. destruct (Rlt_dec (-1 * 1) 0); [reflexivity|lra].
Qed.

(** get_polynomial_coefficients does not match the forward pass: for every degree of at least three, every
    parameter value and every related pair with nonzero direction the reported coefficients describe another
    polynomial.  (It divides by (i+1) inside the loop over factors, in place of dividing coefficient j by j+1.) *)
Theorem C24_reported_coefficients_refuted : forall m d o, (1 <= mp_k m)%nat ->
  mp_masked m d o = false -> mp_direction m d o <> 0 ->
  ~ (forall x, poly_eval (mp_reported m d o) x = poly_eval (mp_coefs m d o) x).
Proof.
  intros m d o Hk Hm Hd. apply reported_wrong; auto. unfold mp_sign. now rewrite Hm.
Qed.
Print Assumptions C24_reported_coefficients_refuted.
(** For degree one the reported coefficient is right, and a switched-off pair is reported as zero. *)
Theorem C24_reported_coefficients_linear : forall m d o, 
  (mp_k m = O -> forall x, poly_eval (mp_reported m d o) x = poly_eval (mp_coefs m d o) x) /\
  (mp_masked m d o = true -> forall x, poly_eval (mp_reported m d o) x = poly_eval (mp_coefs m d o) x).
Proof.
  intros m d o. split; [intros; now apply reported_linear|]. intros Hm x. rewrite mp_reported_eval, mp_primitive_coefs.
  unfold mp_sign. rewrite Hm. ring.
Qed.
Print Assumptions C24_reported_coefficients_linear.
Example C24_reported_nonvacuous : exists m, mpm_init [2]%nat 1 None 3 true false (fun _ _ => 0) = Ok m /\
  ~ (forall x, poly_eval (mp_reported (q_poly m) 0 0) x = poly_eval (mp_coefs (q_poly m) 0 0) x).
Proof.
  eexists; split; [reflexivity|]. apply C24_reported_coefficients_refuted; cbn; [lia|reflexivity|].
  unfold mp_direction. cbn. lra.
Qed.
