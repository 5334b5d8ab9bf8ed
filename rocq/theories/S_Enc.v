(** Specification vocabulary for the encoders: the network in formulas, without layer lists. *)
From Coq Require Import Reals String.
From Verif Require Import Base RBase M_Enc S_Data.
Import List.
Local Open Scope R_scope.

(** Normalisation of one unit over a batch: [col r] is its value for row [r] of [N].  In training the
    mean and the biased variance of the batch are used, otherwise the stored ones. *)
Definition unit_mean (N : nat) (col : nat -> R) : R := sumn N col / INR N.
Definition unit_var (N : nat) (col : nat -> R) : R := sumn N (fun r => (col r - unit_mean N col) ^ 2) / INR N.
Definition standardise (gamma beta mean var x : R) : R := (x - mean) / sqrt (var + / 100000) * gamma + beta.
Definition normalise (training : bool) (N : nat) (gamma beta mean var : R) (col : nat -> R) (x : R) : R :=
  if training then standardise gamma beta (unit_mean N col) (unit_var N col) x else standardise gamma beta mean var x.

(** Value of unit [j] of hidden layer [k] (layer 0 is the input) for row [r]: weights [w k j i], biases
    [b k j], sizes [sz k], normalisation [norm k j] of the unit over the batch, nonlinearity [f]. *)
Fixpoint hidden_unit (sz : nat -> nat) (w : nat -> nat -> nat -> R) (b : nat -> nat -> R)
  (norm : nat -> nat -> (nat -> R) -> R -> R) (f : R -> R) (x : nat -> nat -> R) (k : nat) (r j : nat) : R :=
  match k with
  | O => x r j
  | S k' => let z s := sumn (sz k') (fun i => w k' j i * hidden_unit sz w b norm f x k' s i) + b k' j in
            f (norm k' j z (z r))
  end.

(** [out] has one row per input row and [lv] values per row, those of the linear output layer. *)
Definition encodes (n lv width : nat) (ow : nat -> nat -> R) (ob : nat -> R) (g : R -> R) (hid : nat -> nat -> R) (out : list (list R)) : Prop :=
  List.length out = n /\ Forall (fun r => List.length r = lv) out /\
  forall r j, (r < n)%nat -> (j < lv)%nat ->
    at_ out r j = Some (g (sumn width (fun i => ow j i * hid r i) + ob j)).

Definition entry (xs : list (list R)) (r i : nat) : R := nth i (nth r xs []) 0.

(** Name of the normalisation of layer [k] in the standard encoder. *)
Definition standard_name (bn : bool) (k : nat) : option string :=
  if bn then Some (match k with O => "batchnorm0"%string | S _ => numbered "batchnorm0" k end) else None.
(** In the two other encoders only layer 0 has one. *)
Definition only_first (bn : bool) (k : nat) : option string :=
  if bn then match k with O => Some "batchnorm0"%string | S _ => None end else None.

(** Normalisation of layer [k]: by the statistics stored under its name, if it has one. *)
Definition norm_of (v : values) (training : bool) (N : nat) (nm : nat -> option string) (k j : nat) (col : nat -> R) (x : R) : R :=
  match nm k with
  | Some b => normalise training N (p_gamma v b j) (p_beta v b j) (p_mean v b j) (p_var v b j) col x
  | None => x
  end.

(** Units of the last hidden layer, with weights, biases and statistics as stored under the module names
    "linear0", "linear1", ..., for hidden sizes [h], input width [inp] and names [nm] of the normalisations. *)
Definition hidden_of (f : R -> R) (v : values) (training : bool) (inp : nat) (h : list nat) (nm : nat -> option string) (xs : list (list R)) : nat -> nat -> R :=
  hidden_unit (fun k => nth k (inp :: h) 0%nat) (fun k => p_weight v (numbered "linear" k)) (fun k => p_bias v (numbered "linear" k))
    (norm_of v training (List.length xs) nm) f (entry xs) (List.length h).

(** How many hidden layers are normalised. *)
Definition is_norm (m : string * layer) : bool := match snd m with BatchNorm _ => true | _ => false end.
Definition norms (l : modules) : nat := List.length (filter is_norm l).

