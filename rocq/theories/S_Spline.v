(** Specification vocabulary for the rational-quadratic spline. *)
From Verif Require Import Base RBase M_Spline.
Local Open Scope R_scope.

(** Configurations whose constructor arguments are sensible; the unconstrained widths, heights and interior
    derivatives are arbitrary reals. *)
Record rqs_wf (m : rqs) : Prop := {
  wf_bins : (0 < rq_bins m)%nat;
  wf_w : length (rq_w m) = rq_bins m;
  wf_h : length (rq_h m) = rq_bins m;
  wf_d : length (rq_d m) = (rq_bins m - 1)%nat;
  wf_in : rq_lo m < rq_hi m;
  wf_out : rq_lo_out m < rq_hi_out m;
  wf_min_w : 0 <= rq_min_w m /\ rq_min_w m * INR (rq_bins m) <= 1;
  wf_min_h : 0 <= rq_min_h m /\ rq_min_h m * INR (rq_bins m) <= 1;
  wf_min_d : 0 <= rq_min_d m < 1;
  wf_slope : 0 < rq_slope m }.
(** [F] and [L] are the value and the log-derivative reported for every input. *)
Definition computes (m : rqs) (inverse : bool) (F L : R -> R) : Prop :=
  forall x, rq_transform m inverse x = Ok (F x, L x).
(** [f] changes at rate [exp l] at [x]. *)
Definition log_derivative (f : R -> R) (x l : R) : Prop := derivable_pt_lim f x (exp l).
