(** Proofs: softplus layers, split activation, stacks of layers. *)
From Verif Require Import Base BaseFacts RBase RFacts M_Logit S_Logit P_Logit M_Mono S_Mono P_Mono1.
Local Open Scope R_scope.

Lemma le_vec_length x y : le_vec x y -> length x = length y.
Proof. induction 1; cbn; auto. Qed.
Lemma le_vec_nth x y i : le_vec x y -> nth i x 0 <= nth i y 0.
Proof. intro H. revert i. induction H; intros [|i]; cbn; try lra; auto. Qed.
Lemma le_vec_intro x y : length x = length y -> (forall i, (i < length x)%nat -> nth i x 0 <= nth i y 0) -> le_vec x y.
Proof.
  revert y. induction x as [|a x IH]; intros [|b y] Hl H; try discriminate; constructor.
  - apply (H O). cbn; lia.
  - apply IH; [now injection Hl|]. intros i Hi. apply (H (S i)). cbn; lia.
Qed.
Lemma le_vec_refl x : le_vec x x.
Proof. induction x; constructor; auto; lra. Qed.

(** ** Split activation: position [i] goes through activation [i mod n]. *)
Definition act (bounded : bool) (i : nat) : R -> R :=
  if bounded then match (i mod 3)%nat with O => elu | 1%nat => fun v => - elu (- v) | _ => belu 1 end
  else match (i mod 2)%nat with O => elu | _ => fun v => - elu (- v) end.
Definition period (bounded : bool) : nat := if bounded then 3%nat else 2%nat.

Lemma stride_length n k l q : (k < n)%nat -> length l = (q * n)%nat -> length (stride n k l) = q.
Proof.
  intros Hk Hl. unfold stride. rewrite map_length, seq_length, Hl.
  replace (q * n + n - 1 - k)%nat with ((n - 1 - k) + q * n)%nat by nia.
  rewrite Nat.div_add, Nat.div_small by lia. lia.
Qed.
Lemma nth_stride n k l q j : (k < n)%nat -> length l = (q * n)%nat -> (j < q)%nat ->
  nth j (stride n k l) 0 = nth (j * n + k) l 0.
Proof.
  intros Hk Hl Hj. pose proof (stride_length n k l q Hk Hl) as E. unfold stride in *.
  rewrite map_length, seq_length in E. rewrite E. now apply (nth_map_seq (fun j => nth (j * n + k) l 0)).
Qed.
Lemma nth_map_lt f l j : (j < length l)%nat -> nth j (map f l) 0 = f (nth j l 0).
Proof. intro H. rewrite nth_indep with (d' := f 0) by (rewrite map_length; auto). apply map_nth. Qed.

Lemma interleave_spec cols n q (g : nat -> nat -> R) :
  length cols = n -> (0 < n)%nat -> (forall k c, nth_error cols k = Some c -> length c = q) ->
  (forall j k, (j < q)%nat -> (k < n)%nat -> nth j (nth k cols []) 0 = g j k) ->
  exists y, interleave cols = Ok y /\ length y = (q * n)%nat /\
    forall j k, (j < q)%nat -> (k < n)%nat -> nth_error y (j * n + k) = Some (g j k).
Proof.
  intros Hn Hp Hq Hg. unfold interleave. destruct cols as [|c cols']; [cbn in Hn; lia|]. set (cols := c :: cols') in *.
  assert (Hc : length c = q) by (apply (Hq O); reflexivity).
  replace (forallb _ cols) with true.
  2:{ symmetry. apply forallb_forall. intros d Hd. apply In_nth_error in Hd as [k Hk]. rewrite (Hq _ _ Hk), Hc. apply Nat.eqb_refl. }
  eexists; split; [reflexivity|]. rewrite flat_map_concat_map, Hc.
  assert (HF : Forall (fun l => length l = n) (map (fun j => map (fun d => nth j d 0) cols) (seq 0 q))).
  { apply Forall_forall. intros l Hl. apply in_map_iff in Hl as (j & <- & _). now rewrite map_length. }
  split.
  - rewrite (length_concat_const _ n HF), map_length, seq_length. reflexivity.
  - intros j k Hj Hk.
    rewrite (nth_error_concat_const _ n j k (map (fun d => nth j d 0) cols) HF); auto.
    2:{ now rewrite nth_error_map_seq. }
    rewrite nth_error_map. rewrite (nth_error_nth_lt _ _ []) by lia. cbn [option_map]. now rewrite Hg.
Qed.

Lemma mod_pos j n k : (k < n)%nat -> ((j * n + k) mod n = k)%nat.
Proof. intro H. rewrite Nat.add_comm, Nat.mod_add by lia. now apply Nat.mod_small. Qed.
Lemma split_activation_spec bounded x : (length x mod period bounded = 0)%nat ->
  exists y, split_activation bounded x = Ok y /\ length y = length x /\
    forall i, (i < length x)%nat -> nth i y 0 = act bounded i (nth i x 0).
Proof.
  intro H. set (n := period bounded) in *. assert (Hn : (0 < n)%nat) by (unfold n, period; destruct bounded; lia).
  assert (Hq : length x = (length x / n * n)%nat).
  { pose proof (Nat.div_mod (length x) n). lia. }
  set (q := (length x / n)%nat) in *.
  assert (S : exists y, split_activation bounded x = Ok y /\ length y = (q * n)%nat /\
    forall j k, (j < q)%nat -> (k < n)%nat -> nth_error y (j * n + k) = Some (act bounded (j * n + k) (nth (j * n + k) x 0))).
  { unfold split_activation. destruct bounded; apply interleave_spec with (g := fun j k => act _ (j * n + k) (nth (j * n + k) x 0)); auto.
    - intros [|[|[|k]]] c Hc; [injection Hc as <-|injection Hc as <-|injection Hc as <-|destruct k; discriminate];
        (rewrite map_length; apply stride_length; [lia|exact Hq]).
    - intros j k Hj Hk. unfold n, period in Hk. unfold act.
      replace ((j * n + k) mod 3)%nat with k by (symmetry; apply mod_pos; lia).
      destruct k as [|[|[|k]]]; [| | |lia]; cbn [nth]; rewrite nth_map_lt by (rewrite (stride_length 3 _ x q); [exact Hj|lia|exact Hq]);
        (rewrite (nth_stride 3 _ x q); [reflexivity|lia|exact Hq|exact Hj]).
    - intros [|[|k]] c Hc; [injection Hc as <-|injection Hc as <-|destruct k; discriminate];
        (rewrite map_length; apply stride_length; [lia|exact Hq]).
    - intros j k Hj Hk. unfold n, period in Hk. unfold act.
      replace ((j * n + k) mod 2)%nat with k by (symmetry; apply mod_pos; lia).
      destruct k as [|[|k]]; [| |lia]; cbn [nth]; rewrite nth_map_lt by (rewrite (stride_length 2 _ x q); [exact Hj|lia|exact Hq]);
        (rewrite (nth_stride 2 _ x q); [reflexivity|lia|exact Hq|exact Hj]). }
  destruct S as (y & Hy & Hl & Hnth). exists y. split; [exact Hy|]. split; [lia|]. intros i Hi.
  destruct (position_split q n i ltac:(lia)) as (j & k & Hj & Hk & ->).
  exact (nth_error_nth _ _ 0 (Hnth j k Hj Hk)).
Qed.
Lemma split_activation_error bounded x : (length x mod period bounded <> 0)%nat ->
  split_activation bounded x = Err RuntimeError.
Proof.
  intro H. unfold split_activation, period in *. destruct bounded.
  - set (n := length x) in *. pose proof (Nat.div_mod n 3 ltac:(lia)) as E. pose proof (Nat.mod_upper_bound n 3 ltac:(lia)).
    unfold interleave.
    assert (L0 : length (stride 3 0 x) = S (n / 3)).
    { unfold stride. rewrite map_length, seq_length. fold n. symmetry. apply Nat.div_unique with ((n mod 3) - 1)%nat; lia. }
    assert (L2 : length (stride 3 2 x) = (n / 3)%nat).
    { unfold stride. rewrite map_length, seq_length. fold n. symmetry. apply Nat.div_unique with (n mod 3)%nat; lia. }
    cbn [forallb]. rewrite !map_length, L0, L2.
    replace (n / 3 =? S (n / 3))%nat with false by (symmetry; apply Nat.eqb_neq; lia).
    rewrite Bool.andb_false_l, !Bool.andb_false_r. reflexivity.
  - set (n := length x) in *. pose proof (Nat.div_mod n 2 ltac:(lia)) as E. pose proof (Nat.mod_upper_bound n 2 ltac:(lia)).
    unfold interleave.
    assert (L0 : length (stride 2 0 x) = S (n / 2)).
    { unfold stride. rewrite map_length, seq_length. fold n. symmetry. apply Nat.div_unique with ((n mod 2) - 1)%nat; lia. }
    assert (L2 : length (stride 2 1 x) = (n / 2)%nat).
    { unfold stride. rewrite map_length, seq_length. fold n. symmetry. apply Nat.div_unique with (n mod 2)%nat; lia. }
    cbn [forallb]. rewrite !map_length, L0, L2.
    replace (n / 2 =? S (n / 2))%nat with false by (symmetry; apply Nat.eqb_neq; lia).
    rewrite Bool.andb_false_l, !Bool.andb_false_r. reflexivity.
Qed.
Lemma act_increasing bounded i : increasing (act bounded i).
Proof.
  unfold act. destruct bounded.
  - destruct (i mod 3)%nat as [|[|k]]; auto using elu_increasing, neg_elu_increasing. apply belu_increasing; lra.
  - destruct (i mod 2)%nat as [|k]; auto using elu_increasing, neg_elu_increasing.
Qed.
Lemma act_0 bounded i : act bounded i 0 = 0.
Proof.
  assert (- elu (- 0) = 0) by (rewrite Ropp_0, elu_0; ring).
  assert (belu 1 0 = 0) by (apply belu_mid; lra).
  unfold act. destruct bounded.
  - destruct (i mod 3)%nat as [|[|k]]; auto using elu_0.
  - destruct (i mod 2)%nat as [|k]; auto using elu_0.
Qed.

(** ** One layer *)
Definition layer_weight (m : spl) (o i : nat) : R :=
  slope (sl_free m) (if sl_softplus m then map softplus (sl_raw m) else sl_raw m) o i.
Definition layer_bias (m : spl) (o : nat) : R :=
  if nth o (sl_zero_out m) false then 0
  else nth (ctrue (firstn o (map negb (sl_zero_out m)))) (sl_bias m) 0.

Lemma layer_weight_nonneg m o i : sl_softplus m = true -> 0 <= layer_weight m o i.
Proof.
  intro H. unfold layer_weight, slope. rewrite H. destruct (nth i (nth o (sl_free m) []) false); [|lra].
  set (p := (_ + _)%nat). destruct (nth_in_or_default p (map softplus (sl_raw m)) 0) as [Hi| ->]; [|lra].
  apply in_map_iff in Hi as (w & <- & _). left. apply softplus_pos.
Qed.
Lemma layer_weight_pos m o i : spl_wf m -> nth i (nth o (sl_free m) []) false = true -> 0 < layer_weight m o i.
Proof.
  intros (Hin & Hs & Hf & Hr & Hw & _) H. unfold layer_weight, slope. rewrite H, Hs.
  assert (Ho : (o < length (sl_free m))%nat).
  { destruct (Nat.lt_ge_cases o (length (sl_free m))) as [|Hge]; auto. rewrite (nth_overflow (sl_free m)) in H by auto. destruct i; discriminate. }
  assert (Hi : (i < length (nth o (sl_free m) []))%nat).
  { destruct (Nat.lt_ge_cases i (length (nth o (sl_free m) []))) as [|Hge]; auto. rewrite nth_overflow in H by auto. discriminate. }
  assert (Hlt : (ctrue (concat (firstn o (sl_free m))) + ctrue (firstn i (nth o (sl_free m) [])) < ctrue (concat (sl_free m)))%nat).
  { rewrite <- (firstn_skipn o (sl_free m)) at 3. rewrite concat_app, ctrue_app.
    destruct (skipn o (sl_free m)) as [|r rest] eqn:E.
    - apply (f_equal (@length _)) in E. rewrite skipn_length in E. cbn in E. lia.
    - assert (nth o (sl_free m) [] = r).
      { assert (Q : nth_error (skipn o (sl_free m)) 0 = Some r) by now rewrite E.
        rewrite nth_error_skipn_add, Nat.add_0_r in Q. exact (nth_error_nth _ _ [] Q). }
      rewrite H0 in *. cbn [concat]. rewrite ctrue_app.
      pose proof (ctrue_firstn_lt r i). rewrite (nth_error_nth_lt r i false Hi), H in H1. specialize (H1 eq_refl). lia. }
  rewrite nth_map_lt by lia. apply softplus_pos.
Qed.

Lemma spl_forward_spec m x o : spl_wf m -> length x = sl_in m -> (o < sl_out m)%nat ->
  nth_error (spl_forward m x) o = Some (predictor (sl_in m) (layer_weight m o) x + layer_bias m o).
Proof.
  intros (Hin & Hs & Hf & Hr & Hw & Hz & Hb) Hx Ho. unfold spl_forward.
  set (w := if sl_softplus m then map softplus (sl_raw m) else sl_raw m).
  assert (Hwl : length w = ctrue (concat (sl_free m))) by (unfold w; rewrite Hs, map_length; auto).
  rewrite nth_error_zip_with.
  rewrite (predictors_nth (sl_free m) (sl_in m) w x o) by (auto; lia).
  unfold full_bias. rewrite (nth_error_mask_scatter _ _ _ o (negb (nth o (sl_zero_out m) false))).
  2:{ now rewrite repeat_length. }
  2:{ lia. }
  2:{ rewrite nth_error_map, (nth_error_nth_lt _ _ false) by lia. reflexivity. }
  unfold layer_bias. destruct (nth o (sl_zero_out m) false) eqn:E; cbn [negb].
  - rewrite nth_error_repeat_lt by (rewrite map_length; lia). reflexivity.
  - rewrite (nth_error_nth_lt (sl_bias m) _ 0); [reflexivity|]. rewrite Hb. apply ctrue_firstn_lt.
    rewrite nth_error_map, (nth_error_nth_lt _ _ false) by lia. now rewrite E.
Qed.
Lemma spl_forward_length m x : spl_wf m -> length (spl_forward m x) = sl_out m.
Proof.
  intros (Hin & Hs & Hf & Hr & Hw & Hz & Hb). unfold spl_forward.
  rewrite zip_with_length, map_length, weight_matrix_length, full_bias_length, map_length by auto. lia.
Qed.
Lemma predictor_le n a x y : (forall i, (i < n)%nat -> 0 <= a i) -> (forall i, (i < n)%nat -> nth i x 0 <= nth i y 0) ->
  predictor n a x <= predictor n a y.
Proof. intros Ha H. apply sumn_le. intros k Hk. apply Rmult_le_compat_l; auto. Qed.
Lemma spl_forward_monotone m x y : spl_wf m -> length x = sl_in m -> le_vec x y ->
  le_vec (spl_forward m x) (spl_forward m y).
Proof.
  intros Hwf Hx H. pose proof (le_vec_length _ _ H) as Hl. apply le_vec_intro.
  - now rewrite !spl_forward_length.
  - intros o Ho. rewrite spl_forward_length in Ho by auto.
    rewrite (nth_error_nth _ _ 0 (spl_forward_spec m x o Hwf Hx Ho)).
    rewrite (nth_error_nth _ _ 0 (spl_forward_spec m y o Hwf ltac:(lia) Ho)).
    apply Rplus_le_compat_r, predictor_le.
    + intros i _. apply layer_weight_nonneg, Hwf.
    + intros i _. now apply le_vec_nth.
Qed.

(** ** Stacks *)
Lemma split_activation_monotone bounded x x' : (length x mod period bounded = 0)%nat -> le_vec x x' ->
  exists y y', split_activation bounded x = Ok y /\ split_activation bounded x' = Ok y' /\
    length y = length x /\ le_vec y y'.
Proof.
  intros H Hle. pose proof (le_vec_length _ _ Hle) as Hl.
  destruct (split_activation_spec bounded x H) as (y & Hy & Hly & Hn).
  rewrite Hl in H. destruct (split_activation_spec bounded x' H) as (y' & Hy' & Hly' & Hn').
  exists y, y'. split; [auto|]. split; [auto|]. split; [auto|]. apply le_vec_intro; [lia|].
  intros i Hi. rewrite Hn, Hn' by lia. apply increasing_le; [apply act_increasing|now apply le_vec_nth].
Qed.

Fixpoint out_size (groups prev : nat) (hs : list nat) : nat :=
  match hs with [] => prev | h :: hs' => out_size groups (groups * h) hs' end.
Lemma run_layers_monotone bounded groups ls prev x x' :
  stack_wf groups prev ls -> Forall (fun l => (sl_out l mod period bounded = 0)%nat) ls ->
  length x = prev -> le_vec x x' ->
  exists y y', run_layers bounded ls x = Ok y /\ run_layers bounded ls x' = Ok y' /\ le_vec y y' /\
    length y = last (map sl_out ls) prev.
Proof.
  revert prev x x'. induction ls as [|l ls IH]; intros prev x x' Hwf Hm Hx Hle.
  - exists x, x'. auto.
  - cbn [stack_wf] in Hwf. destruct Hwf as (Hl & Hin & h & Ho & Hrest). inversion Hm as [|? ? Hm1 Hm2]; subst.
    pose proof (spl_forward_monotone l x x' Hl ltac:(lia) Hle) as Hf.
    destruct (split_activation_monotone bounded (spl_forward l x) (spl_forward l x')) as (z & z' & Hz & Hz' & Hzl & Hzle); auto.
    { now rewrite spl_forward_length. }
    rewrite spl_forward_length in Hzl by auto.
    destruct (IH (groups * h)%nat z z' Hrest Hm2 ltac:(lia) Hzle) as (y & y' & Hy & Hy' & Hyle & Hyl).
    exists y, y'. cbn [run_layers]. rewrite Hz, Hz'. cbn [bind]. repeat split; auto.
    rewrite Hyl, <- Ho. cbn [map]. destruct ls as [|l2 ls2]; [reflexivity|].
    cbn [map]. clear. generalize (map sl_out ls2) as r. intro r. revert l2.
    generalize (sl_in l) as p. generalize (sl_out l) as q.
    intros q p l2. generalize (sl_out l2) as s. induction r as [|r0 r IH]; intro s; [reflexivity|].
    cbn. destruct r; [reflexivity|]. apply (IH r0).
Qed.
(** Units without connections stay at zero. *)
Lemma zero_unit m x o : spl_wf m -> length x = sl_in m -> (o < sl_out m)%nat ->
  nth o (sl_zero_out m) false = true -> (forall i, nth i (nth o (sl_free m) []) false = false) ->
  nth_error (spl_forward m x) o = Some 0.
Proof.
  intros Hwf Hx Ho Hz Hf. rewrite spl_forward_spec by auto. unfold layer_bias. rewrite Hz, Rplus_0_r.
  f_equal. unfold predictor. rewrite (sumn_ext _ _ (fun _ => 0)); [apply sumn_0|].
  intros k _. unfold layer_weight, slope. rewrite Hf. ring.
Qed.
