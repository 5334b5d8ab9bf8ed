(** Vocabulary of the statements about the evaluator. *)
From Verif Require Import Base RBase M_Data M_Lik M_Est S_Lik S_Est.
Local Open Scope R_scope.

(** [k] is the most probable category, the first one when several are equally probable. *)
Definition top (p : list R) (k : nat) : Prop :=
  exists x, nth_error p k = Some x /\ forall j y, nth_error p j = Some y -> y <= x /\ ((j < k)%nat -> y < x).
(** Respondent [n] answered item [i]; respondent [n] chose category [k] of item [i]. *)
Definition seen (rows : list (list cell)) (n i : nat) : bool :=
  match at2 rows n i with Some (Some z) => negb (z =? -1)%Z | _ => false end.
Definition chose (rows : list (list cell)) (n i k : nat) : bool :=
  match at2 rows n i with Some (Some z) => (z =? Z.of_nat k)%Z | _ => false end.
(** How many elements of a list satisfy [f]; proportions, NaN or zero when there is nothing to divide by. *)
Definition tally {A} (f : A -> bool) (l : list A) : nat := length (filter f l).
Definition share (a b : nat) : option R := if (b =? 0)%nat then None else Some (INR a / INR b).
Definition share0 (a b : nat) : R := if (b =? 0)%nat then 0 else INR a / INR b.
Definition everyone (N : nat) : list nat := seq 0 N.
Definition all_cells (N I : nat) : list (nat * nat) := list_prod (seq 0 N) (seq 0 I).
(** [x] is the mean of [l], NaN when there is nothing to average. *)
Definition mean_of (l : list R) (x : option R) : Prop :=
  match l with [] => x = None | _ => exists m, x = Some m /\ m * INR (length l) = rsum l end.
(** Expected score when category [k] counts [k]; its variance. *)
Definition mean_score (p : list R) : R := sumn (length p) (fun k => INR k * nth k p 0).
Definition variance_of_score (p : list R) : R := sumn (length p) (fun k => nth k p 0 * (INR k - mean_score p) ^ 2).
(** [groups] split [l] into consecutive parts of the given sizes. *)
Definition splits_into {A} (l : list A) (sizes : list nat) (groups : list (list A)) : Prop :=
  concat groups = l /\ map (@length A) groups = sizes.
(** [order] lists the respondents 0 .. N-1 by increasing score. *)
Definition increasing_order (score : nat -> R) (N : nat) (order : list nat) : Prop :=
  NoDup order /\ (forall n, In n order <-> (n < N)%nat) /\
  forall a b i j, nth_error order i = Some a -> nth_error order j = Some b -> (i < j)%nat -> score a <= score b.
(** Group [g] of every list in which earlier members have smaller scores. *)
Definition ordered_groups (score : nat -> R) (groups : list (list nat)) : Prop :=
  forall g h G H a b, nth_error groups g = Some G -> nth_error groups h = Some H -> (g < h)%nat -> In a G -> In b H -> score a <= score b.
(** Among the respondents who answered item [i]: how many of them, how many are predicted to choose [k], how many
    chose [k], and both. *)
Section Votes.
  Variables (N : nat) (rows : list (list cell)) (pred : nat -> nat -> nat) (i : nat).
  Definition answerers : nat := tally (fun n => seen rows n i) (everyone N).
  Definition guessed (k : nat) : nat := tally (fun n => seen rows n i && (pred n i =? k)%nat)%bool (everyone N).
  Definition given (k : nat) : nat := tally (fun n => chose rows n i k) (everyone N).
  Definition right (k : nat) : nat := tally (fun n => chose rows n i k && (pred n i =? k)%nat)%bool (everyone N).
  (** Precision, recall and F1 of category [k]. *)
  Definition precision_of (k : nat) : R := share0 (right k) (guessed k).
  Definition recall_of (k : nat) : R := share0 (right k) (given k).
  Definition f1_of (k : nat) : R := share0 (2 * right k) (guessed k + given k).
  (** Plain average over the categories, and average weighted by how often each was chosen. *)
  Definition plain_average (K : nat) (f : nat -> R) : R := sumn K f / INR K.
  Definition weighted_average (K : nat) (f : nat -> R) : option R :=
    if (answerers =? 0)%nat then None else Some (sumn K (fun k => INR (given k) / INR answerers * f k)).
End Votes.
(** The same cells are answered, with the same answers and the same probabilities. *)
Definition same_observed (probs probs' : list (list (list R))) (rows rows' : list (list cell)) : Prop :=
  forall n i, seen rows n i = seen rows' n i /\ (seen rows n i = true -> at2 rows n i = at2 rows' n i /\ at2 probs n i = at2 probs' n i).
(** The entries of a row that are not NaN; column [i] of a matrix. *)
Fixpoint known (l : list (option R)) : list R :=
  match l with [] => [] | Some x :: l' => x :: known l' | None :: l' => known l' end.
Definition column_of (m : list (list (option R))) (i : nat) : list (option R) := map (fun r => nth i r None) m.
(** Score of category [k] of item [i]: the category number, or one for the correct option. *)
Definition score_of (mc : option (list Z)) (i k : nat) : R :=
  match mc with None => INR k | Some key => if (nth i key (-1) =? Z.of_nat k)%Z then 1 else 0 end.
(** Mean and variance of the score [s] under the probabilities [p]. *)
Definition average_score (s : nat -> R) (p : list R) : R := sumn (length p) (fun k => nth k p 0 * s k).
Definition score_spread (s : nat -> R) (p : list R) : R := sumn (length p) (fun k => nth k p 0 * (s k - average_score s p) ^ 2).
(** Squared residual of a cell and its expected value under the model. *)
Definition cell_error (mc : option (list Z)) (rows : list (list cell)) (probs : list (list (list R))) (n i : nat) : R :=
  match at2 rows n i, at2 probs n i with
  | Some (Some z), Some p => (score_of mc i (Z.to_nat z) - average_score (score_of mc i) p) ^ 2
  | _, _ => 0
  end.
Definition cell_spread (mc : option (list Z)) (probs : list (list (list R))) (n i : nat) : R :=
  match at2 probs n i with Some p => score_spread (score_of mc i) p | None => 0 end.
(** Infit and outfit of the cells in [l]. *)
Definition infit_of {A} (error spread : A -> R) (l : list A) : option ext :=
  match l with [] => None | _ => Some (Fin (rsum (map error l) / rsum (map spread l))) end.
Definition outfit_of {A} (error spread : A -> R) (l : list A) : option ext :=
  match l with [] => None | _ => Some (Fin (rsum (map (fun x => error x / spread x) l) / INR (length l))) end.
(** ** Log-likelihoods *)
(** Log-probability of the observed answer of respondent [n] to item [i], -30 when it is impossible. *)
Definition cell_loglik (p : list R -> nat -> nat -> R) (thetas : list (list R)) (rows : list (list cell)) (n i : nat) : R :=
  match at2 rows n i with
  | Some (Some z) => let q := p (nth n thetas []) i (Z.to_nat z) in if Rlt_dec 0 q then ln q else -30
  | _ => 0
  end.
(** Everybody answered everything. *)
Definition complete (N I : nat) (rows : list (list cell)) : Prop := forall n i, (n < N)%nat -> (i < I)%nat -> seen rows n i = true.
(** Mean of the log-likelihoods of the respondents in [G]. *)
Definition group_loglik (p : list R -> nat -> nat -> R) (thetas : list (list R)) (rows : list (list cell)) (G : list nat) (x : fl) : Prop :=
  match G with
  | [] => x = None
  | _ => (forall n, In n G -> 0 < likelihood p (nth n thetas []) (nth n rows [])) ->
         exists m, x = Some (Fin m) /\ m * INR (length G) = rsum (map (fun n => ln (likelihood p (nth n thetas []) (nth n rows []))) G)
  end.
(** The cell log-likelihoods of the model hold NaN somewhere as soon as something is masked. *)
Definition marks_missing (m : emodel) : Prop :=
  forall data out mask l, Forall (fun r => length r = w_cols mask) (w_rows mask) ->
    em_ll m RNone data out (Some mask) = Ok (Cells l) -> (exists r, In r (w_rows mask) /\ In true r) -> In None l.
(** ** Groups of respondents *)
(** The answers are categories below [M]. *)
Definition answers_below (M : nat) (rows : list (list cell)) : Prop :=
  forall n i, seen rows n i = true -> exists k, (k < M)%nat /\ chose rows n i k = true.
(** Consecutive groups of [c] members (the last one may be smaller, none is empty). *)
Definition cut_into {A} (l : list A) (c : nat) (groups : list (list A)) : Prop :=
  concat groups = l /\ forall g G, nth_error groups g = Some G -> G <> [] /\ length G = Nat.min c (length l - g * c).
(** Share of the answers of the members of [G] to item [i] that are category [k]; mean probability of that category. *)
Definition observed_share (rows : list (list cell)) (G : list nat) (i k : nat) : option R :=
  share (tally (fun n => chose rows n i k) G) (tally (fun n => seen rows n i) G).
Definition model_share (iprob : list R -> list (list R)) (thetas : list (list R)) (G : list nat) (i k : nat) : R :=
  rsum (map (fun n => nth k (nth i (iprob (nth n thetas [])) []) 0) G) / INR (length G).
(** Mid point of a group: the mean score on a rescaled model, the (lower) median score otherwise. *)
Definition group_mid {A} (scale : option A) (score : nat -> R) (G : list nat) : option R :=
  match scale with Some _ => Some (rsum (map score G) / INR (length G)) | None => Some (score (nth ((length G - 1) / 2) G O)) end.
