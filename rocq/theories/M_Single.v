(** Model of the log-likelihood of one answer in single precision (torch.float32, torch's default
    dtype, which irtorch never changes for parameters, scores or data).  The arithmetic is a
    parameter; [single_precision] says what is assumed of it.  One respondent and one item; the
    reshapes around this are those of M_Logit and M_Lik.  [w] is the item's entry of
    [torch.matmul(theta, weights.T)] as that product returns it. *)
From Coq Require Import Reals ZArith List.
From Verif Require Import Base RBase M_Data M_Logit M_Lik M_Est.
Import ListNotations.
Import M_Est List.
Local Open Scope R_scope.

(** ** The number format *)
(** Single-precision numbers: M * 2^(e - 149) with |M| < 2^24 and 0 <= e <= 253. *)
Definition is_single (x : R) : Prop :=
  exists M e : Z, (Z.abs M < 2 ^ 24)%Z /\ (0 <= e <= 253)%Z /\ x = IZR (M * 2 ^ e) / IZR (2 ^ 149).
(** Results this large in size overflow: 2^128 - 2^103. *)
Definition top : R := IZR (2 ^ 128 - 2 ^ 103).
(** y is a single-precision number as near to x as any.
    No code of irtorch: the rounding of torch.float32, the dtype of the tensors of base_irt_model.py:221-264. *)
Definition nearest (y x : R) : Prop :=
  is_single y /\ forall z, is_single z -> Rabs (x - y) <= Rabs (x - z).

(** Rounding of a result to the format, and the library's exponential and logarithm.
    No code of irtorch: torch's kernels under graded_response.py:119-203 and base_irt_model.py:257. *)
Record arith := Arith { round : R -> R; expo : R -> R; loga : R -> R }.
(** What is assumed: rounding to the nearest number (of the tie rule only that 1 - 2^-25 goes to 1,
    whose last bit is even), and an exponential and a logarithm with a relative error of at most
    2^-22 (and, for the exponential, an absolute one of 2^-149), exact at 0 and not above 1 at
    negative numbers. *)
Record single_precision (A : arith) : Prop := SP {
  sp_nearest : forall x, Rabs x < top -> nearest (round A x) x;
  sp_even : round A (1 - / 33554432) = 1;
  sp_exp : forall x, 0 <= expo A x /\ Rabs (expo A x - exp x) <= exp x / 4194304 + / IZR (2 ^ 149);
  sp_exp_zero : expo A 0 = 1;
  sp_exp_one : forall x, x <= 0 -> expo A x <= 1;
  sp_log : forall x, 0 < x -> Rabs (loga A x - ln x) <= Rabs (ln x) / 4194304 }.

Section Arithmetic.
Variable A : arith.
(** The result of an operation: rounded, or infinite when too large.
    Under every arithmetic operation of graded_response.py:119-203, three_parameter_logistic.py:87-165 and base_irt_model.py:257. *)
Definition fround (a : fl) : fl :=
  match a with
  | Some (Fin x) => if Rlt_dec (Rabs x) top then Some (Fin (round A x)) else finf (fpos (Fin x))
  | r => r
  end.
(** [+], e.g. graded_response.py:133-143. *)
Definition add32 (a b : fl) : fl := fround (fadd a b).
(** [-], e.g. graded_response.py:160-165. *)
Definition sub32 (a b : fl) : fl := fround (fsub a b).
(** [*], e.g. three_parameter_logistic.py:101-111. *)
Definition mul32 (a b : fl) : fl := fround (fmul a b).
(** [/] inside sigmoid, graded_response.py:160-165. *)
Definition div32 (a b : fl) : fl := fround (fdiv a b).
(** exp inside sigmoid (graded_response.py:160-165) and inside cross_entropy (base_irt_model.py:257). *)
Definition exp32 (a : fl) : fl :=
  match a with
  | Some (Fin x) => if Rlt_dec (expo A x) top then Some (Fin (expo A x)) else Some PInf
  | Some NInf => Some (Fin 0)
  | r => r
  end.
(** [log], graded_response.py:203, and inside cross_entropy (base_irt_model.py:257). *)
Definition log32 (a : fl) : fl :=
  match a with
  | Some (Fin x) => if Rlt_dec 0 x then Some (Fin (loga A x)) else if Req_EM_T x 0 then Some NInf else None
  | Some PInf => Some PInf
  | _ => None
  end.
(** The 1 of three_parameter_logistic.py:101-111 and 127-129. *)
Definition one32 : fl := Some (Fin 1).
(** [x.sigmoid()]: torch's CPU kernel computes 1 / (1 + exp(-x)). *)
Definition sigmoid32 (z : fl) : fl := div32 one32 (add32 one32 (exp32 (fneg z))).
(** [x.sum()], in order. The sum inside cross_entropy, base_irt_model.py:257. *)
Definition sum32 (l : list fl) : fl := fold_left add32 l (Some (Fin 0)).

(** ** Graded response, graded_response.py:119-165,203 *)
(** forward, lines 133-143: [b] holds the item's K - 1 thresholds; the first category is +inf and
    the categories the item does not have are -inf. *)
Definition grm_output32 (M K : nat) (w : R) (b : list R) : list fl :=
  map (fun k => if (k =? 0)%nat then Some PInf
                else if (k <? K)%nat then add32 (Some (Fin w)) (Some (Fin (nth (k - 1) b 0)))
                else Some NInf) (seq 0 M).
(** probabilities_from_output, lines 160-165: each but the last loses the next. *)
Definition grm_diff32 (geq : list fl) : list fl :=
  zip_with sub32 (removelast geq) (tl geq) ++ skipn (length geq - 1) geq.
(** graded_response.py:133-165, forward and probabilities. *)
Definition grm_item32 (M K : nat) (w : R) (b : list R) : list fl :=
  grm_diff32 (map sigmoid32 (grm_output32 M K w b)).
(** log_likelihood, line 203: the logarithm of the answered category's probability. *)
Definition answer_log32 (probs : list fl) (k : nat) : fl := log32 (nth k probs None).

(** ** Three-parameter logistic, three_parameter_logistic.py:87-129,165 *)
(** forward, lines 101-111. *)
Definition thpl_output32 (w b g : R) : fl :=
  let p := sigmoid32 (add32 (Some (Fin w)) (Some (Fin b))) in
  let c := sigmoid32 (Some (Fin g)) in
  add32 (mul32 p (sub32 one32 c)) c.
(** probabilities_from_output, lines 127-129. *)
Definition thpl_item32 (w b g : R) : list fl :=
  let p := thpl_output32 w b g in [sub32 one32 p; p].

(** ** Cross-entropy, base_irt_model.py:249-256 *)
(** [-F.cross_entropy] of one row: torch's log_softmax subtracts the largest entry, sums the
    exponentials, and subtracts the logarithm of the sum. base_irt_model.py:257. *)
Definition log_softmax32 (row : list fl) (k : nat) : fl :=
  let m := fmax row in
  let shifted := map (fun z => sub32 z m) row in
  sub32 (nth k shifted None) (log32 (sum32 (map exp32 shifted))).

(** forward of the two-parameter model, two_parameter_logistic.py:103-113. *)
Definition tpl_row32 (w b : R) : list fl := [Some (Fin 0); add32 (Some (Fin w)) (Some (Fin b))].
End Arithmetic.
