(** The encoder's input in training and in scoring. *)
From Coq Require Import QArith Qround Lia String Reals.
From Verif Require Import Base BaseFacts RBase M_Data M_Lik M_Score S_Data S_Score P_Data.
Import List.
Local Open Scope nat_scope.

Lemma qround_Z : forall z, qround (inject_Z z) = z.
Proof.
  intros z. unfold qround. rewrite Qfloor_Z.
  assert (E : (inject_Z z - inject_Z z ?= 1 # 2)%Q = Lt).
  { apply -> Qlt_alt. apply Qle_lt_trans with 0%Q; [|reflexivity]. apply Qle_lteq. right. ring. }
  rewrite E. reflexivity.
Qed.

Lemma round_to_q : forall rows, map (map (option_map qround)) (map (map to_q) rows) = rows.
Proof.
  intros rows. rewrite map_map. rewrite <- (map_id rows) at 2. apply map_ext. intros row. rewrite map_map.
  rewrite <- (map_id row) at 2. apply map_ext. intros [z|]; [|reflexivity]. cbn. rewrite qround_Z. reflexivity.
Qed.

Lemma any_missing_true : forall d, any_missing d = true <-> some_missing d.
Proof.
  intros d. unfold any_missing, some_missing. rewrite existsb_exists. split.
  - intros (row & H & E). apply existsb_exists in E. destruct E as (x & Hx & Ex). apply missing_cell_spec in Ex.
    apply In_nth_error in H. destruct H as (r & H). apply In_nth_error in Hx. destruct Hx as (c & Hx).
    exists r, c, x. unfold at_. rewrite H, Hx. auto.
  - intros (r & c & x & H & E). unfold at_ in H. destruct (nth_error (m_rows d) r) as [row|] eqn:Er; [|discriminate H].
    exists row. split; [eapply nth_error_In; exact Er|]. apply existsb_exists. exists x. split; [eapply nth_error_In; exact H|].
    apply missing_cell_spec. exact E.
Qed.

Lemma any_missing_false : forall d, any_missing d = false <-> complete d.
Proof.
  intros d. split.
  - intros H row c Hr Hc Hm. assert (any_missing d = true); [|congruence]. unfold any_missing. apply existsb_exists.
    exists row. split; [exact Hr|]. apply existsb_exists. exists c. split; [exact Hc|]. apply missing_cell_spec. exact Hm.
  - intros H. destruct (any_missing d) eqn:E; [|reflexivity]. unfold any_missing in E. apply existsb_exists in E.
    destruct E as (row & Hr & E). apply existsb_exists in E. destruct E as (c & Hc & E). apply missing_cell_spec in E.
    destruct (H row c Hr Hc E).
Qed.

Lemma complete_no_nan : forall d, complete d -> fill_nan d = d.
Proof. intros d H. apply fill_nan_id. intros row c Hr Hc ->. apply (H row None Hr Hc). left. reflexivity. Qed.

Lemma complete_m1 : forall d, complete d -> map (map m1_to_nan) (m_rows d) = m_rows d.
Proof.
  intros d H. rewrite <- (map_id (m_rows d)) at 2. apply map_ext_in. intros row Hr. rewrite <- (map_id row) at 2.
  apply map_ext_in. intros c Hc. specialize (H row c Hr Hc). destruct c as [z|]; [|reflexivity]. unfold m1_to_nan. cbn.
  destruct (Z.eqb_spec z (-1)); [|reflexivity]. subst z. destruct H. right. reflexivity.
Qed.

Lemma zero_complete : forall d, complete d -> zero_fill (m_rows d) = map (map to_q) (m_rows d).
Proof.
  intros d H. unfold zero_fill. apply map_ext_in. intros row Hr. apply map_ext_in. intros c Hc.
  destruct c as [z|]; [reflexivity|]. destruct (H row None Hr Hc). left. reflexivity.
Qed.
Lemma mapi_map_in : forall {A B} (f : nat -> A -> B) g l, (forall i a, In a l -> f i a = g a) -> mapi f l = map g l.
Proof.
  intros A B f g l H. apply nth_error_ext. intros i. rewrite nth_error_mapi, nth_error_map. destruct (nth_error l i) eqn:E; [|reflexivity].
  cbn. rewrite H; [reflexivity|]. eapply nth_error_In. exact E.
Qed.
Lemma mean_complete : forall d, complete d -> mean_fill (m_rows d) = map (map to_q) (m_rows d).
Proof.
  intros d H. unfold mean_fill. apply map_ext_in. intros row Hr. apply mapi_map_in. intros i c Hc.
  destruct c as [z|]; [reflexivity|]. destruct (H row None Hr Hc). left. reflexivity.
Qed.

(** Complete data: the responses themselves or their one-hot code, whatever the imputation method. *)
Theorem input_complete : forall draw one_hot m cats d, complete d ->
  score_input draw one_hot m cats d =
  (if one_hot then rmap as_floats (fst (one_hot_encode d cats)) else Ok (map (map to_q) (m_rows d)), d).
Proof.
  intros draw one_hot m cats d H. unfold score_input. rewrite (proj2 (any_missing_false d) H). destruct one_hot; [|reflexivity].
  assert (E : snd (one_hot_encode d cats) = d).
  { apply one_hot_caller. right. right. intros row c Hr Hc ->. apply (H row None Hr Hc). left. reflexivity. }
  destruct (one_hot_encode d cats) as [r d']. cbn in *. subst d'. reflexivity.
Qed.

(** Zero and mean imputation, and one-hot codes without imputation: scoring builds the input training built. *)
Theorem input_as_training : forall draw draw' one_hot m key cats d,
  m = Some IZero \/ m = Some IMean \/ (m = None /\ one_hot = true) ->
  score_input draw one_hot m cats d = train_input draw' one_hot m key cats d.
Proof.
  intros draw draw' one_hot m key cats d Hm. destruct (any_missing d) eqn:E.
  - unfold score_input. rewrite E. destruct Hm as [-> | [-> | [-> ->]]]; reflexivity.
  - apply any_missing_false in E. rewrite (input_complete draw one_hot m cats d E).
    destruct Hm as [-> | [-> | [-> ->]]]; unfold train_input.
    + cbn [impute_internal fst bind]. rewrite (complete_m1 d E), (zero_complete d E). unfold one_hot_imputed.
      rewrite round_to_q. destruct d. reflexivity.
    + cbn [impute_internal fst bind]. rewrite (complete_m1 d E), (mean_complete d E). unfold one_hot_imputed.
      rewrite round_to_q. destruct d. reflexivity.
    + assert (S2 : snd (one_hot_encode d cats) = d).
      { apply one_hot_caller. right. right. intros row c Hr Hc ->. apply (E row None Hr Hc). left. reflexivity. }
      destruct (one_hot_encode d cats) as [r d']. cbn in *. subst d'. reflexivity.
Qed.

Theorem input_random : forall draw one_hot cats d, some_missing d ->
  score_input draw one_hot (Some IRandomIncorrect) cats d = (Err ValueError, d).
Proof. intros draw one_hot cats d H. unfold score_input. rewrite (proj2 (any_missing_true d) H). reflexivity. Qed.

Theorem input_none : forall draw cats d, some_missing d -> score_input draw false None cats d = (Err ValueError, d).
Proof. intros draw cats d H. unfold score_input. rewrite (proj2 (any_missing_true d) H). reflexivity. Qed.

(** One-hot codes without imputation and with zero imputation differ. *)
Lemma round_zero_fill : forall rows, map (map (option_map qround)) (zero_fill (map (map m1_to_nan) rows)) =
  map (map (fun c => if missing_cell c then Some 0%Z else c)) rows.
Proof.
  intros rows. unfold zero_fill. rewrite !map_map. apply map_ext. intros row. rewrite !map_map. apply map_ext. intros [z|].
  - unfold m1_to_nan, missing_cell. cbn [is_m1 is_nan]. destruct (Z.eqb_spec z (-1)); cbn [orb].
    + change 0%Q with (inject_Z 0). cbn [option_map]. rewrite qround_Z. reflexivity.
    + cbn [option_map]. rewrite qround_Z. reflexivity.
  - change 0%Q with (inject_Z 0). cbn [m1_to_nan is_m1 missing_cell is_nan orb option_map]; rewrite (qround_Z 0). reflexivity.
Qed.

Lemma F2len : forall {A B} (P : A -> B -> Prop) l l', Forall2 P l l' -> length l = length l'.
Proof. intros A B P l l' H. induction H; cbn; congruence. Qed.
Definition filled (d : mat) : mat := Mat (m_dim d) (m_cols d) (map (map (fun c => if missing_cell c then Some 0%Z else c)) (m_rows d)).

Lemma filled_legal : forall cats d, Forall (fun K => 0 < K) cats -> legal cats d -> legal cats (filled d).
Proof.
  intros cats d HK H row i K c Hr Hi Hc. cbn in Hr. apply in_map_iff in Hr. destruct Hr as (row0 & <- & Hr).
  rewrite nth_error_map in Hc. destruct (nth_error row0 i) as [c0|] eqn:E; [|discriminate Hc]. cbn in Hc.
  destruct (missing_cell c0) eqn:Em.
  - right. exists 0%Z. split; [congruence|]. assert (0 < K); [|lia]. rewrite Forall_forall in HK. apply HK. eapply nth_error_In. exact Hi.
  - assert (c = c0) by congruence. subst c0. exact (H row0 i K c Hr Hi E).
Qed.

Theorem inputs_differ : forall draw draw' key cats d, rectangular d -> m_cols d = length cats -> legal cats d ->
  Forall (fun K => 0 < K) cats -> some_missing d ->
  exists x y, fst (score_input draw true None cats d) = Ok x /\
    fst (train_input draw' true (Some IZero) key cats d) = Ok y /\ length x = length y /\ x <> y.
Proof.
  intros draw draw' key cats d Hr Hc Hl HK Hm.
  destruct Hm as (r & i & c & Hat & Hmc).
  assert (Hrow : exists row, nth_error (m_rows d) r = Some row /\ nth_error row i = Some c).
  { unfold at_ in Hat. destruct (nth_error (m_rows d) r) as [row|] eqn:E; [|discriminate Hat]. exists row. auto. }
  destruct Hrow as (row & Hrow & Hci).
  assert (Hlen : length row = length cats).
  { destruct Hr as [_ HF]. rewrite Forall_forall in HF. rewrite (HF row), Hc; [reflexivity|]. eapply nth_error_In. exact Hrow. }
  assert (Hi : i < length cats) by (rewrite <- Hlen; apply nth_error_Some; congruence).
  assert (Hne : cats <> []) by (intros ->; cbn in Hi; lia).
  destruct (nth_error cats i) as [K|] eqn:EK; [|apply nth_error_None in EK; lia].
  assert (HKi : 0 < K) by (rewrite Forall_forall in HK; apply HK; eapply nth_error_In; exact EK).
  destruct (one_hot_correct d cats Hr Hc Hne Hl) as (enc & Eenc & F).
  assert (Hr' : rectangular (filled d)).
  { destruct Hr as [H1 H2]. split; [exact H1|]. cbn. apply Forall_map. eapply Forall_impl; [|exact H2]. cbv beta. intros a Ha. rewrite map_length. exact Ha. }
  destruct (one_hot_correct (filled d) cats Hr' Hc Hne (filled_legal cats d HK Hl)) as (enc' & Eenc' & F').
  exists (as_floats enc), (as_floats enc').
  split; [|split; [|split]].
  - unfold score_input. replace (any_missing d) with true; [|symmetry; apply any_missing_true; exists r, i, c; auto].
    destruct (one_hot_encode d cats) as [re de]. cbn in *. rewrite Eenc. reflexivity.
  - unfold train_input. cbn [impute_internal fst bind]. unfold one_hot_imputed. rewrite round_zero_fill.
    unfold filled in Eenc'. rewrite Eenc'. reflexivity.
  - unfold as_floats. rewrite !map_length. apply F2len in F. apply F2len in F'. cbn in F'. rewrite map_length in F'. congruence.
  - intros E.
    assert (Hn : exists a, nth_error enc r = Some a /\ is_one_hot cats row a).
    { clear - F Hrow. revert r Hrow. induction F as [|x y l l' Hxy F IH]; intros [|r] H; cbn in *; try discriminate H.
      - exists y. split; [reflexivity|]. congruence.
      - apply IH. exact H. }
    destruct Hn as (a & Ha & Ia).
    assert (Hn' : exists b, nth_error enc' r = Some b /\ is_one_hot cats (map (fun c => if missing_cell c then Some 0%Z else c) row) b).
    { assert (Hrow' : nth_error (m_rows (filled d)) r = Some (map (fun c => if missing_cell c then Some 0%Z else c) row)).
      { cbn. rewrite nth_error_map, Hrow. reflexivity. }
      clear - F' Hrow'. revert r Hrow'. induction F' as [|x y l l' Hxy F IH]; intros [|r] H; cbn in *; try discriminate H.
      - exists y. split; [reflexivity|]. congruence.
      - apply IH. exact H. }
    destruct Hn' as (b & Hb & Ib).
    assert (Eab : map (fun z => Some (inject_Z z)) a = map (fun z => Some (inject_Z z)) b).
    { assert (X : nth_error (as_floats enc) r = nth_error (as_floats enc') r) by congruence.
      unfold as_floats in X. rewrite !nth_error_map, Ha, Hb in X. cbn in X. congruence. }
    destruct Ia as [_ Ia]. destruct (Ia i K c 0 EK Hci HKi) as (xa & Hxa & Ca).
    destruct Ib as [_ Ib]. destruct (Ib i K (Some 0%Z) 0 EK) as (xb & Hxb & Cb); [|exact HKi|].
    { rewrite nth_error_map, Hci. cbn. rewrite (proj2 (missing_cell_spec c) Hmc). reflexivity. }
    assert (X : nth_error (map (fun z => Some (inject_Z z)) a) (list_sum (firstn i cats) + 0) =
                nth_error (map (fun z => Some (inject_Z z)) b) (list_sum (firstn i cats) + 0)) by congruence.
    rewrite !nth_error_map, Hxa, Hxb in X. cbn in X.
    destruct Ca as [[Ca _]|[_ ->]]; [destruct Hmc; subst; discriminate Ca|].
    destruct Cb as [[_ ->]|[Cb _]]; [discriminate X | apply Cb; reflexivity].
Qed.

(** Mean imputation of a single new respondent. *)
Theorem input_single_mean : forall draw cats row cols i x, nth_error row i = Some x -> Missing x ->
  exists out, score_input draw false (Some IMean) cats (Mat 2 cols [row]) = (Ok out, Mat 2 cols [row]) /\ at_ out 0 i = Some None.
Proof.
  intros draw cats row cols i x Hx Hm. unfold score_input.
  replace (any_missing (Mat 2 cols [row])) with true.
  2:{ symmetry. apply any_missing_true. exists 0, i, x. split; [exact Hx | exact Hm]. }
  eexists. split; [reflexivity|]. cbn [m_rows map mean_fill]. unfold at_. cbn [nth_error]. rewrite nth_error_mapi, nth_error_map, Hx. cbn [option_map].
  assert (E : m1_to_nan x = None) by (destruct Hm as [-> | ->]; reflexivity). rewrite E. cbn.
  erewrite nth_error_nth; [|rewrite nth_error_map, Hx; cbn; rewrite E; reflexivity]. reflexivity.
Qed.
