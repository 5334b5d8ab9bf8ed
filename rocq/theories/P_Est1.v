(** Log-likelihood per respondent, and the MML objective. *)
From Verif Require Import Base BaseFacts RBase RFacts M_Data M_Logit M_Lik S_Lik P_Lik1 P_Lik2 P_Lik3 P_Lik5 M_Est S_Est.
Local Open Scope R_scope.

(** ** Logarithms of nonnegative numbers *)
Lemma flog_mul a b : 0 <= a -> 0 <= b -> fadd (flog (Some a)) (flog (Some b)) = flog (Some (a * b)).
Proof.
  intros Ha Hb. destruct (Req_dec a 0) as [-> |Ha0].
  { rewrite Rmult_0_l, flog_zero. destruct (Req_dec b 0) as [-> |]; [now rewrite flog_zero|].
    rewrite flog_pos by lra. reflexivity. }
  destruct (Req_dec b 0) as [-> |Hb0].
  { rewrite Rmult_0_r, flog_zero, flog_pos by lra. reflexivity. }
  assert (0 < a * b) by (apply Rmult_lt_0_compat; lra).
  rewrite !flog_pos by lra. cbn. now rewrite ln_mult by lra.
Qed.
Lemma flog_one : flog (Some 1) = Some (Fin 0).
Proof. rewrite flog_pos by lra. now rewrite ln_1. Qed.
Lemma flog_not_nan a : 0 <= a -> nan_to_zero (flog (Some a)) = flog (Some a).
Proof.
  intro H. destruct (Req_dec a 0) as [-> |]; [now rewrite flog_zero|]. now rewrite flog_pos by lra.
Qed.
Lemma rprod_nonneg l : Forall (fun x => 0 <= x) l -> 0 <= rprod l.
Proof. induction 1; cbn; [lra|]. now apply Rmult_le_pos. Qed.
Lemma fnansum_logs vals ps : length vals = length ps ->
  (forall i v q, nth_error vals i = Some v -> nth_error ps i = Some q -> 0 <= q /\ nan_to_zero v = flog (Some q)) ->
  0 <= rprod ps /\ fnansum vals = flog (Some (rprod ps)).
Proof.
  revert ps. induction vals as [|v vals IH]; intros [|q ps] Hl H; try discriminate.
  - split; [cbn; lra|]. cbn [rprod]. now rewrite flog_one.
  - destruct (IH ps) as [Hp E]; [cbn [length] in Hl; lia| |].
    { intros i v' q' H1 H2. exact (H (S i) v' q' H1 H2). }
    destruct (H O v q eq_refl eq_refl) as [Hq Ev].
    split; [cbn; now apply Rmult_le_pos|].
    unfold fnansum in *. cbn [map fsum fold_right rprod]. fold (fsum (map nan_to_zero vals)). rewrite E, Ev.
    now apply flog_mul.
Qed.

(** ** Rows of a flat tensor *)
Lemma nth_error_blocks_rect {A} w (l : list A) n i : (0 < w)%nat -> length l = (n * w)%nat -> (i < n)%nat ->
  nth_error (blocks w l) i = Some (firstn w (skipn (i * w) l)).
Proof. intros Hw Hl Hi. rewrite nth_error_blocks by auto. destruct (Nat.ltb_spec (i * w) (length l)); auto. nia. Qed.
Lemma view_rows_rect {A} n w (l : list A) : (0 < n)%nat -> length l = (n * w)%nat ->
  view_rows n l = Ok (map (fun i => firstn w (skipn (i * w) l)) (seq 0 n)).
Proof.
  intros Hn Hl. unfold view_rows. rewrite Hl.
  replace (n * w)%nat with (w * n)%nat by lia. rewrite Nat.mod_mul, Nat.div_mul by lia.
  destruct (Nat.ltb_spec 0 n); [|lia]. reflexivity.
Qed.
Lemma blocks_rect {A} n w (l : list A) : (0 < w)%nat -> length l = (n * w)%nat ->
  blocks w l = map (fun i => firstn w (skipn (i * w) l)) (seq 0 n).
Proof.
  intros Hw Hl. apply nth_error_ext. intro i. destruct (Nat.lt_ge_cases i n) as [H|H].
  - rewrite (nth_error_blocks_rect w l n), (nth_error_map_seq _ n 0 i) by auto. reflexivity.
  - rewrite !(proj2 (nth_error_None _ _)); auto; [rewrite map_length, seq_length; lia|].
    rewrite (blocks_count w l n) by auto. lia.
Qed.
Lemma firstn_skipn_nth {A} w i (l : list A) j d : (j < w)%nat -> nth j (firstn w (skipn (i * w) l)) d = nth (i * w + j) l d.
Proof.
  intro H.
  destruct (nth_error l (i * w + j)) as [a|] eqn:E.
  - rewrite (nth_error_nth l _ d E). apply nth_error_nth. rewrite nth_error_firstn_lt by auto. now rewrite nth_error_skipn_add.
  - rewrite (nth_overflow l) by (now apply nth_error_None). apply nth_overflow.
    apply nth_error_None in E. rewrite firstn_length, skipn_length. lia.
Qed.

(** ** Log-likelihood per respondent *)
Definition cell_value (data : list (list cell)) (n i : nat) : nat :=
  match at2 data n i with Some (Some z) => Z.to_nat z | _ => O end.
Lemma legal_data_rect cats data : legal_data cats data -> rect (length data) (length cats) data.
Proof. intro H. split; auto. eapply Forall_impl; [|exact H]. intros r [E _]. exact E. Qed.
Lemma masked_missing data n i row c : nth_error data n = Some row -> nth_error row i = Some c ->
  masked (Some (map (map missing_cell) data)) n i = missing_cell c.
Proof.
  intros En Ei. cbn [masked]. erewrite (nth_error_nth (map (map missing_cell) data)) by (rewrite nth_error_map, En; reflexivity).
  erewrite nth_error_nth by (rewrite nth_error_map, Ei; reflexivity). reflexivity.
Qed.
Lemma missing_answer c : missing_cell c = match answer c with None => true | Some _ => false end.
Proof. destruct c as [z|]; [|reflexivity]. unfold missing_cell, is_m1, is_nan, answer. destruct (z =? -1)%Z; reflexivity. Qed.
Lemma legal_data_responses cats data : legal_data cats data ->
  legal_responses (length data) cats (Some (map (map missing_cell) data)) data (cell_value data).
Proof.
  intros H n i K Hn Hi Hm. destruct (some_row data n Hn) as [row En].
  unfold legal_data in H. rewrite Forall_forall in H. destruct (H row (nth_error_In _ _ En)) as [Hl Hc].
  destruct (nth_error row i) as [c|] eqn:Ei.
  2:{ apply nth_error_None in Ei. assert (i < length cats)%nat by (apply nth_error_Some; congruence). lia. }
  rewrite (masked_missing data n i row c En Ei) in Hm.
  unfold cell_value. assert (E2 : at2 data n i = Some c) by (unfold at2; now rewrite En).
  rewrite E2. destruct (Hc i c Ei) as [-> |[-> |(k & -> & Hk)]]; try discriminate Hm.
  rewrite Nat2Z.id. split; auto. now rewrite (nth_error_nth cats i O Hi) in Hk.
Qed.
Lemma likelihood_nonneg m p theta row : has_probabilities m p -> length theta = em_lv m -> legal_row (em_cats m) row ->
  0 <= likelihood p theta row.
Proof.
  intros [Hp _] Ht [_ Hr]. apply rprod_nonneg. apply Forall_forall. intros x Hx. apply In_nth_error in Hx as [i Hi].
  rewrite nth_error_mapi in Hi. destruct (nth_error row i) as [c|] eqn:E; [|discriminate]. cbn in Hi. injection Hi as <-.
  destruct (Hr i c E) as [-> |[-> |(k & -> & Hk)]]; cbn [answer]; try lra.
  { change ((-1 =? -1)%Z) with true. lra. }
  destruct (Z.eqb_spec (Z.of_nat k) (-1)); [lia|]. rewrite Nat2Z.id. now apply Hp.
Qed.

Section Respondents.
  Variables (m : emodel) (p : list R -> nat -> nat -> R).
  Hypothesis (Hm : has_probabilities m p) (HI : (0 < em_items m)%nat).
  Let I := em_items m.

  Lemma respondent_ll thetas data : Forall (fun t => length t = em_lv m) thetas -> length thetas = length data ->
    legal_data (em_cats m) data ->
    exists out cells, em_forward m thetas = Ok out /\
      em_ll m RNone (Wide I data) out (Some (mask_of (Wide I data))) = Ok (Cells cells) /\
      length cells = (length data * I)%nat /\
      map fnansum (blocks I cells) = zip_with (fun t r => flog (Some (likelihood p t r))) thetas data.
  Proof.
    intros HF Hl Hd. destruct Hm as [Hpos Hcell].
    destruct (Hcell thetas data (Some (map (map missing_cell) data)) (cell_value data) HF) as (out & cells & E1 & E2 & E3 & E4).
    - rewrite Hl. now apply legal_data_rect.
    - cbn [rect_opt]. destruct (legal_data_rect _ _ Hd) as [H1 H2]. split; [now rewrite map_length, Hl|].
      apply Forall_forall. intros r Hr. apply in_map_iff in Hr as [r' [<- Hr']]. rewrite map_length.
      rewrite Forall_forall in H2. auto.
    - rewrite Hl. now apply legal_data_responses.
    - exists out, cells. rewrite Hl in E3. fold I in E3. split; [|split; [|split]]; auto.
      apply nth_error_ext. intro n. rewrite nth_error_map, nth_error_zip_with.
      destruct (Nat.lt_ge_cases n (length data)) as [Hn|Hn].
      2:{ rewrite (proj2 (nth_error_None thetas n)) by lia. rewrite (proj2 (nth_error_None _ _)); auto.
          rewrite (blocks_count I cells (length data)) by auto. lia. }
      destruct (some_row thetas n) as [t Et]; [lia|]. destruct (some_row data n Hn) as [row Er].
      rewrite Et, Er, (nth_error_blocks_rect I cells (length data)) by auto. cbn [option_map]. f_equal.
      unfold legal_data in Hd. rewrite Forall_forall in Hd. destruct (Hd row (nth_error_In _ _ Er)) as [Hrl Hrc].
      assert (Ht : length t = em_lv m) by (rewrite Forall_forall in HF; apply HF; eapply nth_error_In; eauto).
      refine (proj2 (fnansum_logs _ _ _ _)).
      + rewrite mapi_length, firstn_length, skipn_length, E3, Hrl. fold (em_items m). fold I. nia.
      + intros i v q Hv Hq. rewrite nth_error_mapi in Hq. destruct (nth_error row i) as [c|] eqn:Ei; [|discriminate].
        assert (Hi : (i < I)%nat) by (unfold I, em_items; rewrite <- Hrl; apply nth_error_Some; congruence).
        rewrite nth_error_firstn_lt, nth_error_skipn_add in Hv by auto. fold I in E4. rewrite (E4 n i t Et Hi) in Hv.
        assert (Ev : v = if masked (Some (map (map missing_cell) data)) n i then None else flog (Some (p t i (cell_value data n i)))) by congruence.
        rewrite (masked_missing data n i row c Er Ei), missing_answer in Ev.
        assert (Eq : q = match answer c with None => 1 | Some k => p t i k end) by (cbn in Hq; congruence).
        destruct (answer c) as [k|] eqn:Ea; subst v q.
        * assert (Ek : cell_value data n i = k /\ (k < nth i (em_cats m) O)%nat).
          { unfold cell_value, at2. rewrite Er, Ei. destruct (Hrc i c Ei) as [-> |[-> |(k' & -> & Hk)]]; try discriminate Ea.
            unfold answer in Ea. destruct (Z.eqb_spec (Z.of_nat k') (-1)); [lia|]. injection Ea as <-. rewrite Nat2Z.id. auto. }
          destruct Ek as [-> Hk]. split; [now apply Hpos|]. apply flog_not_nan. now apply Hpos.
        * split; [lra|]. cbn [nan_to_zero]. now rewrite flog_one.
  Qed.
End Respondents.

(** ** Log-sum-exp *)
Lemma fmax_logs l : Forall (fun a => 0 <= a) l ->
  (fmax (map (fun a => flog (Some a)) l) = Some NInf /\ Forall (fun a => a = 0) l) \/
  exists c, 0 < c /\ fmax (map (fun a => flog (Some a)) l) = Some (Fin (ln c)).
Proof.
  induction 1 as [|a l Ha Hl IH]; [left; split; [reflexivity|constructor]|].
  cbn [map fmax fold_right]. fold (fmax (map (fun a => flog (Some a)) l)).
  destruct (Req_dec a 0) as [-> |Hne].
  - rewrite flog_zero. destruct IH as [[-> H0]|(c & Hc & ->)].
    + left. split; auto.
    + right. exists c. split; auto.
  - rewrite flog_pos by lra. right. destruct IH as [[-> H0]|(c & Hc & ->)].
    + exists a. split; [lra|reflexivity].
    + cbn [fgt]. destruct (Rlt_dec (ln c) (ln a)); [exists a|exists c]; split; auto; lra.
Qed.
Lemma rsum_map_div l c : rsum (map (fun a => a / c) l) = rsum l / c.
Proof. induction l as [|a l IH]; cbn; [lra|]. rewrite IH. lra. Qed.
Lemma rsum_nonneg l : Forall (fun x => 0 <= x) l -> 0 <= rsum l.
Proof. induction 1; cbn; lra. Qed.
Lemma rsum_pos l : Forall (fun x => 0 <= x) l -> Exists (fun x => 0 < x) l -> 0 < rsum l.
Proof.
  intros HF. induction 1 as [a l H|a l H IH]; cbn.
  - inversion HF; subst. pose proof (rsum_nonneg l). intuition lra.
  - inversion HF; subst. intuition lra.
Qed.
Lemma fexp_shift a c : 0 <= a -> 0 < c -> fexp (fsub (flog (Some a)) (Some (Fin (ln c)))) = Some (Fin (a / c)).
Proof.
  intros Ha Hc. destruct (Req_dec a 0) as [-> |Hne].
  - rewrite flog_zero. cbn. do 2 f_equal. lra.
  - rewrite flog_pos by lra. cbn. do 2 f_equal. rewrite exp_plus, exp_Ropp, !exp_ln by lra. reflexivity.
Qed.
Lemma logsumexp_logs l : Forall (fun a => 0 <= a) l -> Exists (fun a => 0 < a) l ->
  logsumexp_shifted (map (fun a => flog (Some a)) l) = Some (Fin (ln (rsum l))).
Proof.
  intros HF HE. unfold logsumexp_shifted. destruct (fmax_logs l HF) as [[_ H0]|(c & Hc & ->)].
  - exfalso. apply Exists_exists in HE as (a & Ha & Hp). rewrite Forall_forall in H0. rewrite (H0 a Ha) in Hp. lra.
  - rewrite map_map.
    rewrite (map_ext_in _ (fun a => Some (Fin (a / c)))).
    2:{ intros a Ha. rewrite Forall_forall in HF. apply fexp_shift; auto. }
    rewrite <- (map_map (fun a => a / c) (fun x => Some (Fin x))), fsum_fin, rsum_map_div.
    pose proof (rsum_pos l HF HE) as Hs. cbn [flogf]. rewrite flog_pos by (apply Rdiv_lt_0_compat; lra).
    cbn. do 2 f_equal. unfold Rdiv. rewrite ln_mult, ln_Rinv; try lra. now apply Rinv_0_lt_compat.
Qed.

(** ** The MML objective *)
Lemma tile_Forall {A} (P : A -> Prop) k l : Forall P l -> Forall P (tile k l).
Proof. intro H. apply Forall_forall. intros x Hx. unfold tile in Hx. apply in_concat in Hx as (r & Hr & Hx).
  apply repeat_spec in Hr. subst r. rewrite Forall_forall in H. auto. Qed.
Lemma repeat_interleave_Forall {A} (P : A -> Prop) k l : Forall P l -> Forall P (repeat_interleave k l).
Proof. intro H. apply Forall_forall. intros x Hx. unfold repeat_interleave in Hx. apply in_flat_map in Hx as (y & Hy & Hx).
  apply repeat_spec in Hx. subst x. rewrite Forall_forall in H. auto. Qed.
Lemma fsum_map_fin {A} (f : A -> fl) (g : A -> R) l : (forall a, In a l -> f a = Some (Fin (g a))) ->
  fsum (map f l) = Some (Fin (rsum (map g l))).
Proof. intro H. rewrite (map_ext_in _ _ _ H), <- (map_map g (fun x => Some (Fin x))). apply fsum_fin. Qed.
Lemma zip_with_ext_nth {A B C} (f : A -> B -> C) la lb (l : list C) : length la = length lb -> length l = length la ->
  (forall i a b, nth_error la i = Some a -> nth_error lb i = Some b -> nth_error l i = Some (f a b)) -> l = zip_with f la lb.
Proof.
  intros H1 H2 H. apply nth_error_ext. intro i. rewrite nth_error_zip_with.
  destruct (nth_error la i) as [a|] eqn:Ea.
  - destruct (nth_error lb i) as [b|] eqn:Eb; [auto|]. apply nth_error_None in Eb.
    assert (i < length la)%nat by (apply nth_error_Some; congruence). lia.
  - apply nth_error_None in Ea. apply nth_error_None. lia.
Qed.

Lemma mml_objective m p points ws data : has_probabilities m p -> (0 < em_items m)%nat ->
  (0 < length points)%nat -> length ws = length points -> Forall (fun t => length t = em_lv m) points ->
  Forall (fun w => 0 <= w) ws -> legal_data (em_cats m) data ->
  Forall (fun row => exists q w t, nth_error ws q = Some w /\ nth_error points q = Some t /\ 0 < w * likelihood p t row) data ->
  mml_loss m points (map (fun w => flog (Some w)) ws) (Wide (em_items m) data) =
    Ok (Some (Fin (- rsum (map (fun row => ln (marginal_likelihood p points ws row)) data)))).
Proof.
  intros Hm HI HQ Hw HF Hws Hd Hpos. set (I := em_items m) in *. set (N := length data). set (Q := length points) in *.
  destruct (respondent_ll m p Hm HI (repeat_interleave N points) (tile Q data)) as (out & cells & E1 & E2 & E3 & E4).
  { now apply repeat_interleave_Forall. }
  { rewrite repeat_interleave_length, tile_length. reflexivity. }
  { now apply tile_Forall. }
  unfold mml_loss. cbn [w_rows w_cols]. fold N Q I. rewrite E1. cbn [bind]. fold I in E2. rewrite E2. cbn [bind cells_of].
  fold I in E3, E4. rewrite tile_length in E3. fold N in E3. rewrite (reshape_rect I cells (Q * N)) by auto. cbn [bind].
  rewrite E4. unfold add_vec.
  rewrite zip_with_length, !repeat_interleave_length, tile_length, map_length, Hw. fold N Q.
  rewrite Nat.min_id, Nat.eqb_refl. cbn [bind].
  set (sums := zip_with fadd _ _).
  assert (Hsl : length sums = (Q * N)%nat).
  { unfold sums. rewrite zip_with_length, zip_with_length, !repeat_interleave_length, tile_length, map_length, Hw. fold N Q. lia. }
  assert (Hsn : forall q n w t row, nth_error ws q = Some w -> nth_error points q = Some t -> nth_error data n = Some row ->
    nth_error sums (q * N + n) = Some (flog (Some (w * likelihood p t row)))).
  { intros q n w t row Eq Et En. assert (Hn : (n < N)%nat) by (apply nth_error_Some; congruence).
    assert (Hq : (q < Q)%nat) by (apply nth_error_Some; congruence).
    unfold sums. rewrite !nth_error_zip_with.
    rewrite !nth_error_repeat_interleave by auto.
    unfold N at 1. rewrite nth_error_map, Eq, Et, nth_error_tile, En by auto. cbn [option_map]. f_equal. apply flog_mul.
    - rewrite Forall_forall in Hws. apply Hws. eapply nth_error_In; eauto.
    - unfold legal_data in Hd. rewrite Forall_forall in Hd, HF. eapply likelihood_nonneg; eauto using nth_error_In. }
  rewrite (view_rows_rect Q N sums HQ Hsl). cbn [bind]. rewrite Hsl.
  replace (Q * N / Q)%nat with N by (rewrite Nat.mul_comm, Nat.div_mul; lia).
  f_equal.
  assert (Hcol : forall n row, nth_error data n = Some row ->
    column None n (map (fun i => firstn N (skipn (i * N) sums)) (seq 0 Q)) =
      map (fun a => flog (Some a)) (zip_with (fun w t => w * likelihood p t row) ws points)).
  { intros n row En. assert (Hn : (n < N)%nat) by (apply nth_error_Some; congruence). unfold column. rewrite map_map.
    apply nth_error_ext. intro q. destruct (Nat.lt_ge_cases q Q) as [Hq|Hq].
    - rewrite (nth_error_map_seq _ Q 0 q) by auto. cbn [Nat.add].
      destruct (some_row ws q) as [w Ew]; [lia|]. destruct (some_row points q) as [t Et]; [lia|].
      rewrite nth_error_map, nth_error_zip_with, Ew, Et. cbn [option_map]. f_equal.
      rewrite firstn_skipn_nth by auto. apply nth_error_nth. now apply Hsn.
    - rewrite !(proj2 (nth_error_None _ _)); auto.
      + rewrite map_length, zip_with_length. lia.
      + rewrite map_length, seq_length. lia. }
  rewrite (fsum_map_fin _ (fun n => ln (marginal_likelihood p points ws (nth n data [])))).
  - cbn [fneg]. do 3 f_equal. rewrite <- (map_map (fun n => nth n data []) (fun row => ln (marginal_likelihood p points ws row))).
    do 2 f_equal. apply nth_error_ext. intro n. destruct (Nat.lt_ge_cases n N) as [Hn|Hn].
    + rewrite (nth_error_map_seq _ N 0 n) by auto. symmetry. now apply nth_error_nth_lt.
    + rewrite !(proj2 (nth_error_None _ _)); auto; try (rewrite map_length, seq_length; lia).
  - intros n Hn. apply in_seq in Hn. destruct (some_row data n) as [row En]; [unfold N in Hn; lia|].
    rewrite (nth_error_nth data n [] En), (Hcol n row En). apply logsumexp_logs.
    + apply Forall_forall. intros a Ha. apply In_nth_error in Ha as [q Hq]. rewrite nth_error_zip_with in Hq.
      destruct (nth_error ws q) as [w|] eqn:Ew; [|discriminate]. destruct (nth_error points q) as [t|] eqn:Et; [|discriminate].
      injection Hq as <-. apply Rmult_le_pos.
      * rewrite Forall_forall in Hws. apply Hws. eapply nth_error_In; eauto.
      * unfold legal_data in Hd. rewrite Forall_forall in Hd, HF. eapply likelihood_nonneg; eauto using nth_error_In.
    + rewrite Forall_forall in Hpos. destruct (Hpos row (nth_error_In _ _ En)) as (q & w & t & Ew & Et & Hp).
      apply Exists_exists. exists (w * likelihood p t row). split; auto.
      apply nth_error_In with q. now rewrite nth_error_zip_with, Ew, Et.
Qed.
