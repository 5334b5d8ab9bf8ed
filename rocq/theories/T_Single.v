(** C123: in single precision the log-likelihood of a possible answer is a finite number close to
    the logarithm of its probability.  True of every model scored by cross-entropy; false of the
    graded response and three-parameter models, whose probabilities are formed first. *)
From Coq Require Import Reals ZArith List Lia Lra.
From Verif Require Import Base BaseFacts RBase RFacts M_Data M_Logit M_Lik M_Est M_Single
  P_Single1 P_Single2 P_Single3 P_Single4.
Import ListNotations.
Import M_Est List.
Local Open Scope R_scope.

(** Any row of logits (absent categories -inf) and any category the item has: the value is finite,
    not positive, and within (3 D + 16 n^2) 2^-23 of the exact one, with n the length of the row and
    D how far the largest logit is above the answered one. *)
Theorem C123_logits :
  forall (A : arith) (row : list ext) (k : nat) (zk D : R), single_precision A ->
    (forall e, In e row -> e = NInf \/ exists z, e = Fin z /\ Rabs z <= 10 ^ 37) ->
    nth_error row k = Some (Fin zk) -> (forall z, In (Fin z) row -> z - zk <= D) ->
    (Z.of_nat (length row) <= 2 ^ 24)%Z ->
    exists v x, log_softmax32 A (map Some row) k = Some (Fin v) /\ log_softmax_at row k = Some (Fin x) /\
      v <= 0 /\ Rabs (v - x) <= (3 * D + 16 * INR (length row) ^ 2) / 8388608.
Proof.
  intros A row k zk D H F Hk HD Hn.
  destruct (row_close A H row k zk D) as (v & x & E1 & E2 & Hv & C); [|exact Hk|exact HD|exact Hn|].
  - apply Forall_forall. intros e Ie. destruct (F e Ie) as [-> |(z & -> & Hz)]; cbn [bounded_entry]; [exact I|].
    apply Rle_trans with (1 := Hz). lra.
  - exists v, x. split; [exact E1|]. split; [exact E2|]. split; [exact Hv|].
    replace (INR (length row) ^ 2) with (INR (length row) * INR (length row)) by ring. exact C.
Qed.
Print Assumptions C123_logits.

(** The two-parameter model, from the product of scores and slopes on. *)
Theorem C123_two_parameter :
  forall (A : arith) (w b : R) (right : bool), single_precision A -> Rabs (w + b) <= 10 ^ 36 ->
    exists v, log_softmax32 A (tpl_row32 A w b) (if right then 1 else 0)%nat = Some (Fin v) /\ v <= 0 /\
      Rabs (v - ln (if right then logistic (w + b) else 1 - logistic (w + b))) <= (8 * Rabs (w + b) + 66) / 8388608.
Proof.
  intros A w b right H Hb.
  destruct (tpl_row_close A H w b (if right then 1 else 0)%nat) as (v & E & Hv & C).
  - destruct right; lia.
  - apply Rle_trans with (1 := Hb). lra.
  - exists v. split; [exact E|]. split; [exact Hv|]. destruct right; exact C.
Qed.
Print Assumptions C123_two_parameter.

(** Graded response: when the curve of category k + 1 (and of category k, unless k is 0) is at 18 or
    more, answering k has log-likelihood -inf, though the exact probability is positive when the
    thresholds decrease. *)
Theorem C123_graded_refuted :
  forall (A : arith) (M K : nat) (w : R) (b : list R) (k : nat), single_precision A ->
    (S k < K)%nat -> (K <= M)%nat ->
    (k = 0%nat \/ 18 <= w + nth (k - 1) b 0) -> 18 <= w + nth k b 0 ->
    answer_log32 A (grm_item32 A M K w b) k = Some NInf /\
    (k = 0%nat -> 0 < 1 - logistic (w + nth 0 b 0)) /\
    (nth k b 0 < nth (k - 1) b 0 -> 0 < logistic (w + nth (k - 1) b 0) - logistic (w + nth k b 0)).
Proof.
  intros A M K w b k H HK HM H1 H2. split; [|split].
  - unfold answer_log32. rewrite (grm_lost A H M K w b k HK HM H1 H2). apply log_zero.
  - intros _. pose proof (logistic_bounds (w + nth 0 b 0)). lra.
  - intros L. assert (w + nth k b 0 < w + nth (k - 1) b 0) as L2 by lra. apply logistic_lt_iff in L2. lra.
Qed.
Print Assumptions C123_graded_refuted.

(** A two-category graded item is fine on the other side: down to -80, and up to 14. *)
Theorem C123_graded_binary :
  forall (A : arith) (M : nat) (w b z : R) (k : nat), single_precision A -> (2 <= M)%nat -> (k < 2)%nat ->
    add32 A (Some (Fin w)) (Some (Fin b)) = Some (Fin z) -> -80 <= z <= 14 ->
    exists v, answer_log32 A (grm_item32 A M 2 w [b]) k = Some (Fin v) /\ v <= 0.
Proof.
  intros A M w b z k H HM Hk E Hz. destruct (grm_binary A H M w b z HM E Hz) as [(p & E0 & P0) (q & E1 & P1)].
  unfold answer_log32. destruct k as [|[|k]]; [rewrite E0|rewrite E1|lia]; apply (log_fin A H); assumption.
Qed.
Print Assumptions C123_graded_binary.

(** Three-parameter model: a wrong answer has log-likelihood -inf from 18 on, whatever the guessing
    parameter, though its exact probability is positive. *)
Theorem C123_three_parameter_refuted :
  forall (A : arith) (w b g : R), single_precision A -> 18 <= w + b ->
    answer_log32 A (thpl_item32 A w b g) 0 = Some NInf /\
    0 < 1 - (logistic (w + b) * (1 - logistic g) + logistic g).
Proof.
  intros A w b g H Hz. split.
  - unfold answer_log32. rewrite (thpl_lost A H w b g Hz). apply log_zero.
  - pose proof (logistic_bounds (w + b)). pose proof (logistic_bounds g).
    replace (1 - (logistic (w + b) * (1 - logistic g) + logistic g))
      with ((1 - logistic (w + b)) * (1 - logistic g)) by ring. apply Rmult_lt_0_compat; lra.
Qed.
Print Assumptions C123_three_parameter_refuted.

(** One such answer makes the log-likelihood of all of a respondent's answers -inf. *)
Theorem C123_respondent :
  forall (A : arith) (cells : list fl), single_precision A ->
    (forall a, In a cells -> a = Some NInf \/ exists v, a = Some (Fin v) /\ v <= 0) ->
    In (Some NInf) cells -> sum32 A cells = Some NInf.
Proof. intros A cells H F I. apply (sum_lost A H); [apply Forall_forall; exact F|exact I]. Qed.
Print Assumptions C123_respondent.

(** Arithmetic of the kind assumed exists; a four-category item beside a wider one, a graded item
    with thresholds 1 and -1 at w = 20, and the same point under the two-parameter model. *)
Example C123_nonvacuous :
  single_precision some_arith /\
  (exists v x, log_softmax32 some_arith (map Some [Fin 0; Fin 30; Fin (-5); Fin 2; NInf]) 2 = Some (Fin v) /\
    log_softmax_at [Fin 0; Fin 30; Fin (-5); Fin 2; NInf] 2 = Some (Fin x) /\ v <= 0 /\ Rabs (v - x) <= 505 / 8388608) /\
  answer_log32 some_arith (grm_item32 some_arith 4 3 20 [1; -1]) 0 = Some NInf /\
  answer_log32 some_arith (grm_item32 some_arith 4 3 20 [1; -1]) 1 = Some NInf /\
  answer_log32 some_arith (thpl_item32 some_arith 20 1 (-1)) 0 = Some NInf /\
  (exists v, log_softmax32 some_arith (tpl_row32 some_arith 20 1) 0 = Some (Fin v)) /\
  (exists v, answer_log32 some_arith (grm_item32 some_arith 2 2 (-40) [3]) 1 = Some (Fin v)).
Proof.
  pose proof some_single_precision as H. split; [exact H|]. split; [|split; [|split; [|split; [|split]]]].
  - destruct (C123_logits some_arith [Fin 0; Fin 30; Fin (-5); Fin 2; NInf] 2 (-5) 35 H) as (v & x & E1 & E2 & Hv & C).
    + intros e Ie. destruct Ie as [<-|[<-|[<-|[<-|[<-|[]]]]]]; try (left; reflexivity); right; eexists; (split; [reflexivity|]);
      apply Rabs_le; lra.
    + reflexivity.
    + intros z Iz. destruct Iz as [E|[E|[E|[E|[E|[]]]]]]; try discriminate; injection E as <-; lra.
    + vm_compute. discriminate.
    + exists v, x. split; [exact E1|]. split; [exact E2|]. split; [exact Hv|]. cbn [length INR] in C. lra.
  - apply (C123_graded_refuted some_arith 4 3 20 [1; -1] 0 H); cbn; try lia; try lra; try (left; reflexivity).
  - apply (C123_graded_refuted some_arith 4 3 20 [1; -1] 1 H); cbn; try lia; try lra; try (right; lra).
  - apply (C123_three_parameter_refuted some_arith 20 1 (-1) H). lra.
  - destruct (C123_two_parameter some_arith 20 1 false H) as (v & E & _); [apply Rabs_le; lra|exists v; exact E].
  - assert (T : Rabs (-40 + 3) < top) by (apply small_top with 37; [apply Rabs_le|]; lra).
    pose proof (sp_nearest some_arith H _ T) as N.
    destruct (C123_graded_binary some_arith 2 (-40) 3 (round some_arith (-40 + 3)) 1 H) as (v & E & _);
      [lia|lia|unfold add32; cbn [fadd]; apply round_fin; exact T| |exists v; exact E].
    rewrite (nearest_self _ _ N); [lra|]. replace (-40 + 3) with (-37) by lra. apply single_int. vm_compute. discriminate.
Qed.
