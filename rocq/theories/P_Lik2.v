(** The log-likelihood functions against the probability table. *)
From Verif Require Import Base BaseFacts RBase RFacts M_Data M_Logit S_Logit P_Logit M_Lik S_Lik P_Lik1.
Local Open Scope R_scope.

Lemma sum_exp_ext_pos row : existsb is_pinf row || forallb is_ninf row = false -> 0 < rsum (map exp_ext row).
Proof.
  intro H. apply orb_false_iff in H as [Hp Hn].
  assert (Hge : forall l, 0 <= rsum (map exp_ext l)).
  { induction l as [|e l IH]; cbn; [lra|]. destruct e; cbn; [pose proof (exp_pos x)|..]; lra. }
  revert Hp Hn. induction row as [|e row IH]; intros Hp Hn; [discriminate|].
  cbn [existsb forallb map rsum] in *. apply orb_false_iff in Hp as [Hp1 Hp].
  destruct e; cbn in *; try discriminate.
  - pose proof (exp_pos x). pose proof (Hge row). lra.
  - specialize (IH Hp Hn). lra.
Qed.
Lemma flog_pos x : 0 < x -> flog (Some x) = Some (Fin (ln x)).
Proof. intro H. unfold flog. destruct (Rlt_dec 0 x); [reflexivity|contradiction]. Qed.
Lemma flog_zero : flog (Some 0) = Some NInf.
Proof. unfold flog. destruct (Rlt_dec 0 0); [lra|]. destruct (Req_EM_T 0 0); [reflexivity|lra]. Qed.
(** Log-softmax is the logarithm of the softmax. *)
Lemma log_softmax_flog row k : (k < length row)%nat -> log_softmax_at row k = flog (nth k (softmax row) None).
Proof.
  intro Hk. unfold log_softmax_at, softmax.
  destruct (existsb is_pinf row || forallb is_ninf row) eqn:E.
  - assert (Hn : nth k (map (fun _ : ext => @None R) row) None = None).
    { apply nth_error_nth. rewrite nth_error_map, (nth_error_nth_lt row k NInf Hk). reflexivity. }
    now rewrite Hn.
  - pose proof (sum_exp_ext_pos row E) as Hs. set (s := rsum (map exp_ext row)) in *.
    assert (Hn : nth k (map (fun e => Some (exp_ext e / s)) row) None = Some (exp_ext (nth k row NInf) / s)).
    { apply nth_error_nth. rewrite nth_error_map, (nth_error_nth_lt row k NInf Hk). reflexivity. }
    rewrite Hn. destruct (nth k row NInf) as [x| |] eqn:Ee; cbn [exp_ext].
    + rewrite flog_pos by (apply Rdiv_lt_0_compat; [apply exp_pos|auto]). do 2 f_equal.
      unfold Rdiv. rewrite ln_mult by (apply exp_pos || now apply Rinv_0_lt_compat).
      rewrite ln_exp, ln_Rinv by auto. ring.
    + replace (0 / s) with 0 by (unfold Rdiv; ring). now rewrite flog_zero.
    + exfalso. apply orb_false_iff in E as [E _]. assert (Hin : In PInf row) by (rewrite <- Ee; now apply nth_In).
      assert (existsb is_pinf row = true) by (apply existsb_exists; exists PInf; auto). congruence.
Qed.
Lemma ce_row_nat row k : (k < length row)%nat -> ce_row row (Z.of_nat k) = Ok (flog (nth k (softmax row) None)).
Proof.
  intro Hk. unfold ce_row, ignored.
  destruct (Z.eqb_spec (Z.of_nat k) (-100)); [lia|]. destruct (Z.leb_spec 0 (Z.of_nat k)); [|lia].
  destruct (Z.ltb_spec (Z.of_nat k) (Z.of_nat (length row))); [|lia]. cbn [andb].
  rewrite Nat2Z.id. now rewrite log_softmax_flog.
Qed.
Lemma prob_row_nat row k : (k < length row)%nat -> prob_row row (Z.of_nat k) = Ok (flog (nth k row None)).
Proof.
  intro Hk. unfold prob_row, norm_index. destruct (Z.leb_spec 0 (Z.of_nat k)); [|lia].
  destruct (Z.ltb_spec (Z.of_nat k) (Z.of_nat (length row))); [|lia]. cbn [andb]. now rewrite Nat2Z.id.
Qed.

(** The rows used by the cross-entropy version. *)
Section Base.
  Variables (nanl : Z) (N I M : nat) (data : list (list cell)) (output : list (list ext)) (mask : option (list (list bool))).
  Variable x : nat -> nat -> nat.
  Hypothesis HM : (0 < M)%nat.
  Hypothesis Hout : rect N (I * M) output.
  Hypothesis Hdata : rect N I data.
  Hypothesis Hmask : rect_opt N I mask.
  Hypothesis Hresp : responses N I M mask data x.
  Let probs := probabilities_from_output I M output.
  Let rows := blocks M (concat output).

  Lemma base_len : length (concat output) = ((N * I) * M)%nat.
  Proof. rewrite (rect_length output N (I * M)) by auto. lia. Qed.
  Lemma base_rows_len : length rows = (N * I)%nat.
  Proof. apply blocks_count; auto. apply base_len. Qed.
  Lemma base_score n i : (n < N)%nat -> (i < I)%nat -> masked mask n i = false ->
    exists r c, nth_error rows (n * I + i) = Some r /\ at2 data n i = Some c /\
      ce_row r (to_long nanl c) = Ok (flog (prob_at probs n i (x n i))).
  Proof.
    intros Hn Hi Hm. destruct (Hresp n i Hn Hi Hm) as [Hc Hx].
    assert (Hr : nth_error rows (n * I + i) = Some (firstn M (skipn ((n * I + i) * M) (concat output)))).
    { unfold rows. rewrite nth_error_blocks, base_len by auto.
      destruct (Nat.ltb_spec ((n * I + i) * M) (N * I * M)); [reflexivity|]. assert (n * I + i < N * I)%nat by nia. nia. }
    set (row := firstn M (skipn ((n * I + i) * M) (concat output))) in *.
    assert (Hlr : length row = M).
    { unfold row. rewrite firstn_length, skipn_length, base_len. assert (n * I + i + 1 <= N * I)%nat by nia. nia. }
    exists row, (Some (Z.of_nat (x n i))). repeat split; auto. cbn [to_long].
    rewrite ce_row_nat by lia. do 2 f_equal. unfold prob_at, at3, probs, probabilities_from_output.
    assert (HI : (0 < I)%nat) by lia.
    fold rows. rewrite nth_error_blocks by auto. rewrite map_length, base_rows_len.
    destruct (Nat.ltb_spec (n * I) (N * I)); [|nia].
    unfold at2. rewrite nth_error_firstn_lt, nth_error_skipn_add, nth_error_map, Hr by auto. cbn [option_map].
    assert (Hls : length (softmax row) = M).
    { unfold softmax. destruct (existsb is_pinf row || forallb is_ninf row); now rewrite map_length. }
    now rewrite (nth_error_nth_lt (softmax row) (x n i) None) by (rewrite Hls; auto).
  Qed.
  Lemma base_reduce red : red <> ROther ->
    base_log_likelihood nanl M red data output mask =
    (let fm := flat_mask mask (N * I) in
     let ll := mask_select (map negb fm) (map (fun p => flog (prob_at probs (p / I) (p mod I) (x (p / I) (p mod I)))) (seq 0 (N * I))) in
     let ts := mask_select (map negb fm) (map (to_long nanl) (concat data)) in
     match red with
     | RSum => Ok (Scalar (fsum ll))
     | RMean => Ok (Scalar (fdiv_nat (fsum ll) (length (filter (fun t => negb (ignored t)) ts))))
     | _ => Ok (Cells (scatter_opt mask (length (map (to_long nanl) (concat data))) ll))
     end).
  Proof.
    intro Hred. unfold base_log_likelihood. rewrite (reshape_rect M _ (N * I)) by (auto || apply base_len). cbn [bind].
    fold rows. rewrite (drop_opt_flat mask N I rows) by (auto || apply base_rows_len). cbn [bind].
    rewrite (drop_opt_flat mask N I) by (auto || (rewrite map_length; now apply rect_length)). cbn [bind].
    unfold ce_rows. rewrite (core_lengths nanl N I mask data rows Hmask Hdata base_rows_len), Nat.eqb_refl.
    pose proof (core_scores ce_row nanl N I mask data rows (fun n i => flog (prob_at probs n i (x n i))) Hmask Hdata base_rows_len base_score) as E.
    cbv beta zeta in *. destruct red; try contradiction; rewrite E; cbn [bind]; reflexivity.
  Qed.
  Lemma base_cells : exists l, base_log_likelihood nanl M RNone data output mask = Ok (Cells l) /\
    length l = (N * I)%nat /\ forall n i, (n < N)%nat -> (i < I)%nat ->
      nth_error l (n * I + i) = Some (if masked mask n i then None else flog (prob_at probs n i (x n i))).
  Proof.
    rewrite base_reduce by discriminate. cbv zeta.
    destruct (core_cells nanl N I mask data rows (fun n i => flog (prob_at probs n i (x n i))) Hmask Hdata base_rows_len) as (l & E & Hl & H).
    exists l. rewrite E. auto.
  Qed.
  Lemma base_sum (p : nat -> nat -> R) :
    (forall n i, (n < N)%nat -> (i < I)%nat -> masked mask n i = false ->
       at3 probs n i (x n i) = Some (Some (p n i)) /\ 0 < p n i) ->
    base_log_likelihood nanl M RSum data output mask = Ok (Scalar (Some (Fin (observed_sum N I mask (fun n i => ln (p n i)))))).
  Proof.
    intro Hp. rewrite base_reduce by discriminate. cbv zeta. do 2 f_equal.
    apply (core_sum N I mask (fun n i => flog (prob_at probs n i (x n i))) Hmask).
    intros n i Hn Hi Hm. destruct (Hp n i Hn Hi Hm) as [E H]. unfold prob_at. rewrite E. now apply flog_pos.
  Qed.
End Base.

(** The version that indexes a probability table. *)
Section Prob.
  Variables (nanl : Z) (N I M : nat) (data : list (list cell)) (probs : list (list (list (option R)))) (mask : option (list (list bool))).
  Variable x : nat -> nat -> nat.
  Hypothesis HM : (0 < M)%nat.
  Hypothesis Hprobs : rect N I probs.
  Hypothesis Hcats : forall n i r, at2 probs n i = Some r -> length r = M.
  Hypothesis Hdata : rect N I data.
  Hypothesis Hmask : rect_opt N I mask.
  Hypothesis Hresp : responses N I M mask data x.

  Lemma prob_rows_rect : rect (N * I) M (concat probs).
  Proof.
    split; [now apply rect_length|]. apply Forall_forall. intros r Hr. apply In_nth_error in Hr as [p Hp].
    assert (Hlt : (p < N * I)%nat) by (rewrite <- (rect_length probs N I Hprobs); apply nth_error_Some; congruence).
    destruct (position_split N I p Hlt) as (n & i & Hn & Hi & ->).
    rewrite (concat_at2 probs N I) in Hp by auto. eauto.
  Qed.
  Lemma prob_blocks : blocks M (concat (concat probs)) = concat probs.
  Proof. apply blocks_flat; auto. apply (proj2 prob_rows_rect). Qed.
  Lemma prob_score n i : (n < N)%nat -> (i < I)%nat -> masked mask n i = false ->
    exists r c, nth_error (concat probs) (n * I + i) = Some r /\ at2 data n i = Some c /\
      prob_row r (to_long nanl c) = Ok (flog (prob_at probs n i (x n i))).
  Proof.
    intros Hn Hi Hm. destruct (Hresp n i Hn Hi Hm) as [Hc Hx]. rewrite (concat_at2 probs N I) by auto.
    destruct (rect_at2 probs N I n i Hprobs Hn Hi) as [r Hr]. exists r, (Some (Z.of_nat (x n i))).
    repeat split; auto. cbn [to_long]. pose proof (Hcats n i r Hr) as Hl. rewrite prob_row_nat by lia.
    do 2 f_equal. unfold prob_at, at3. unfold at2 in *. destruct (nth_error probs n) as [row|]; [|discriminate].
    rewrite Hr. now rewrite (nth_error_nth_lt r (x n i) None) by lia.
  Qed.
  Lemma prob_reduce red :
    prob_log_likelihood nanl M red data probs mask =
    (let fm := flat_mask mask (N * I) in
     let ll := mask_select (map negb fm) (map (fun p => flog (prob_at probs (p / I) (p mod I) (x (p / I) (p mod I)))) (seq 0 (N * I))) in
     match red with
     | RSum => Ok (Scalar (fsum ll))
     | RNone => Ok (Cells (scatter_opt mask (length (map (to_long nanl) (concat data))) ll))
     | _ => Err ValueError
     end).
  Proof.
    unfold prob_log_likelihood.
    rewrite (reshape_rect M _ (N * I)) by (auto || apply (rect_length _ _ _ prob_rows_rect)). cbn [bind].
    rewrite prob_blocks. rewrite (drop_opt_flat mask N I (concat probs)) by (auto || now apply rect_length). cbn [bind].
    rewrite (drop_opt_flat mask N I) by (auto || (rewrite map_length; now apply rect_length)). cbn [bind].
    unfold prob_rows.
    rewrite (core_lengths nanl N I mask data (concat probs) Hmask Hdata (rect_length probs N I Hprobs)), Nat.leb_refl.
    pose proof (core_scores prob_row nanl N I mask data (concat probs) (fun n i => flog (prob_at probs n i (x n i))) Hmask Hdata
      (rect_length probs N I Hprobs) prob_score) as E.
    cbv beta zeta in *. rewrite E. reflexivity.
  Qed.
  Lemma prob_cells : exists l, prob_log_likelihood nanl M RNone data probs mask = Ok (Cells l) /\
    length l = (N * I)%nat /\ forall n i, (n < N)%nat -> (i < I)%nat ->
      nth_error l (n * I + i) = Some (if masked mask n i then None else flog (prob_at probs n i (x n i))).
  Proof.
    rewrite prob_reduce. cbv zeta.
    destruct (core_cells nanl N I mask data (concat probs) (fun n i => flog (prob_at probs n i (x n i))) Hmask Hdata (rect_length probs N I Hprobs)) as (l & E & Hl & H).
    exists l. rewrite E. auto.
  Qed.
  Lemma prob_sum (p : nat -> nat -> R) :
    (forall n i, (n < N)%nat -> (i < I)%nat -> masked mask n i = false ->
       at3 probs n i (x n i) = Some (Some (p n i)) /\ 0 < p n i) ->
    prob_log_likelihood nanl M RSum data probs mask = Ok (Scalar (Some (Fin (observed_sum N I mask (fun n i => ln (p n i)))))).
  Proof.
    intro Hp. rewrite prob_reduce. cbv zeta. do 2 f_equal.
    apply (core_sum N I mask (fun n i => flog (prob_at probs n i (x n i))) Hmask).
    intros n i Hn Hi Hm. destruct (Hp n i Hn Hi Hm) as [E H]. unfold prob_at. rewrite E. now apply flog_pos.
  Qed.
End Prob.

(** ** Cells marked missing are irrelevant *)
Lemma mask_select_agree {A} m : forall (l l' : list A), length l = length l' ->
  (forall p, nth_error m p = Some true -> nth_error l p = nth_error l' p) -> mask_select m l = mask_select m l'.
Proof.
  induction m as [|b m IH]; intros [|x l] [|y l'] Hl H; cbn [length mask_select] in *; try lia; auto.
  assert (E : mask_select m l = mask_select m l') by (apply IH; [lia|intros p Hp; apply (H (S p) Hp)]).
  destruct b; [|exact E]. specialize (H O eq_refl). cbn in H. injection H as ->. now rewrite E.
Qed.
Lemma targets_agree nanl N I mask d d' : rect_opt N I mask -> rect N I d -> rect N I d' -> agree_observed mask d d' ->
  drop_opt mask (map (to_long nanl) (concat d)) = drop_opt mask (map (to_long nanl) (concat d')).
Proof.
  intros Hm Hd Hd' Ha.
  rewrite !(drop_opt_flat mask N I) by (auto || (rewrite map_length; now apply rect_length)). f_equal.
  apply mask_select_agree; [rewrite !map_length, (rect_length d N I), (rect_length d' N I) by auto; reflexivity|].
  intros p Hp. rewrite nth_error_map in Hp.
  destruct (nth_error (flat_mask mask (N * I)) p) as [b|] eqn:E; [|discriminate]. cbn in Hp.
  assert (Hlt : (p < N * I)%nat) by (rewrite <- (flat_mask_length mask N I Hm); apply nth_error_Some; congruence).
  destruct (position_split N I p Hlt) as (n & i & Hn & Hi & ->).
  rewrite flat_mask_nth in E by auto. rewrite !nth_error_map, !(concat_at2 _ N I) by auto.
  rewrite Ha; [reflexivity|]. destruct b; [discriminate|congruence].
Qed.
Lemma base_masked_irrelevant nanl M red N I mask d d' output : rect_opt N I mask -> rect N I d -> rect N I d' ->
  agree_observed mask d d' ->
  base_log_likelihood nanl M red d output mask = base_log_likelihood nanl M red d' output mask.
Proof.
  intros Hm Hd Hd' Ha. unfold base_log_likelihood. rewrite (targets_agree nanl N I mask d d') by auto.
  rewrite !map_length, (rect_length d N I), (rect_length d' N I) by auto. reflexivity.
Qed.
Lemma prob_masked_irrelevant nanl M red N I mask d d' probs : rect_opt N I mask -> rect N I d -> rect N I d' ->
  agree_observed mask d d' ->
  prob_log_likelihood nanl M red d probs mask = prob_log_likelihood nanl M red d' probs mask.
Proof.
  intros Hm Hd Hd' Ha. unfold prob_log_likelihood. rewrite (targets_agree nanl N I mask d d') by auto.
  rewrite !map_length, (rect_length d N I), (rect_length d' N I) by auto. reflexivity.
Qed.
